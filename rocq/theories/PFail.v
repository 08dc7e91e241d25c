(** A Writer whose underlying writer fails against the same Writer over one that
    never fails (C80): what the first has handed over is a prefix of what the
    second has. *)
From Verif Require Import Base SpecHuffman MChecksum MToken MCommon MWriter SpecEvents SpecSession MSession PWFrame PPrefix.
From Verif Require PWSim.

(** The same libraries over an underlying writer (and Flush, Sync) that never fails. *)
Definition never_failing (e : wenv) : wenv :=
  WEnv (bytesPerBlock e) (e_match e) (e_peek e) (e_huff e) (fun _ _ => None) (fun _ => None) (fun _ => None).

Section Fail.
Variable e1 : wenv.
Notation e2 := (never_failing e1).

(** equal but for the counters of calls of the underlying writer *)
Definition oeq (o1 o2 : wout) : Prop := outBuf o1 = [] /\
  exists n, o2 = match o1 with WOut a b c d _ f g h i j => WOut a b c d n f g h i j end.
Definition weq (x y : writer) : Prop := oeq (w_out x) (w_out y) /\
  exists k l, y = set_calls (set_out x (w_out y)) k l.

(** the second goes on where the first failed *)
Definition orel (m1 m2 : res (wout * bool)) : Prop :=
  match m1 with
  | Ok (x, true) => exists y, m2 = Ok (y, true) /\ oeq x y
  | Ok (x, false) => match m2 with Ok (y, _) => Q (sink x) y | _ => True end
  | _ => True
  end.
Definition rel (m1 m2 : res (writer * bool)) : Prop :=
  match m1 with
  | Ok (x, true) => exists y, m2 = Ok (y, true) /\ weq x y
  | Ok (x, false) => match m2 with Ok (y, _) => U (sink (w_out x)) y | _ => True end
  | _ => True
  end.
Lemma o_bind m1 m2 k1 k2 : orel m1 m2 -> (forall x y, oeq x y -> orel (k1 x) (k2 y)) -> (forall p y, Q p y -> ho (Q p) (Q p) (k2 y)) ->
  orel (let? x := m1 in k1 x) (let? y := m2 in k2 y).
Proof.
  intros H K M. destruct m1 as [[x []]| |]; cbn [rbind orel] in *; auto.
  - destruct H as (y & -> & H). cbn [rbind]. apply K; auto.
  - destruct m2 as [[y []]| |]; cbn [rbind]; auto. pose proof (M _ _ H) as X. destruct (k2 y) as [[z []]| |]; exact X.
Qed.
Lemma r_bind m1 m2 k1 k2 : rel m1 m2 -> (forall x y, weq x y -> rel (k1 x) (k2 y)) -> (forall p y, U p y -> ho (U p) (U p) (k2 y)) ->
  rel (let? x := m1 in k1 x) (let? y := m2 in k2 y).
Proof.
  intros H K M. destruct m1 as [[x []]| |]; cbn [rbind rel] in *; auto.
  - destruct H as (y & -> & H). cbn [rbind]. apply K; auto.
  - destruct m2 as [[y []]| |]; cbn [rbind]; auto. pose proof (M _ _ H) as X. destruct (k2 y) as [[z []]| |]; exact X.
Qed.
Lemma r_ok x y : weq x y -> rel (Ok (x, true)) (Ok (y, true)).
Proof. intros H. exists y. auto. Qed.
Lemma r_let {C} (m : res C) k1 k2 : (forall x, rel (k1 x) (k2 x)) -> rel (rbind m k1) (rbind m k2).
Proof. intros H. destruct m; cbn [rbind rel]; auto. Qed.
Lemma r_assert b m1 m2 : rel m1 m2 -> rel (assertb b m1) (assertb b m2).
Proof. destruct b; cbn [assertb rel]; auto. Qed.
Lemma o_assert b m1 m2 : orel m1 m2 -> orel (assertb b m1) (assertb b m2).
Proof. destruct b; cbn [assertb orel]; auto. Qed.
Lemma r_if (b : bool) m1 m2 n1 n2 : rel m1 m2 -> rel n1 n2 -> rel (if b then m1 else n1) (if b then m2 else n2).
Proof. destruct b; auto. Qed.
Lemma r_for {C} (f1 f2 : C -> writer -> res (writer * bool)) l : (forall c x y, weq x y -> rel (f1 c x) (f2 c y)) ->
  (forall p c y, U p y -> ho (U p) (U p) (f2 c y)) -> forall x y, weq x y -> rel (for_each f1 l x) (for_each f2 l y).
Proof.
  intros H M. induction l as [|c l IH]; intros x y HP; cbn [for_each]; [apply r_ok; auto|]. apply r_bind; auto.
  intros p z Z. apply ho_for; auto.
Qed.

Lemma o_loop cap fuel : forall o1 o2 buf, oeq o1 o2 -> orel (outputBufferLoop e1 fuel cap o1 buf) (outputBufferLoop e2 fuel cap o2 buf).
Proof.
  induction fuel as [|f IH]; intros o1 o2 buf [EB [n E]]; cbn [outputBufferLoop]; destruct buf as [|x buf]; try exact I; try (eexists; split; [reflexivity|]; split; eauto; fail).
  destruct o1 as [a b bf sk m c t st s e]. cbn in EB. subst bf o2. cbn [outBuf]. set (nn := N.to_nat _). set (q := firstn nn _). set (r := skipn nn _).
  unfold outputBufferFlush. cbn [e_sink never_failing app]. destruct (e_sink e1 m q) as [[k e']|].
  - cbn [orel]. match goal with |- match outputBufferLoop _ _ _ ?o _ with _ => _ end => assert (X : Q (sink (WOut a b (skipn (Nat.min k (length q)) q) (sk ++ firstn (Nat.min k (length q)) q) (S m) (crc_update c q) (add64 t (N.of_nat nn)) (add64 st (N.of_nat nn)) errorState (Some e'))) o) end.
    { exists (skipn (Nat.min k (length q)) q). cbn [sink]. rewrite <- app_assoc, firstn_skipn. reflexivity. }
    match goal with |- match outputBufferLoop _ ?f _ ?o ?b with _ => _ end => pose proof (@q_loop e2 _ cap f o b X) as Y; destruct (outputBufferLoop e2 f cap o b) as [[z []]| |]; exact Y end.
  - apply IH. split; [reflexivity|]. eexists. reflexivity.
Qed.
Lemma oeq_set o1 o2 b l : oeq o1 o2 -> oeq (set_ob o1 b l) (set_ob o2 b l).
Proof. intros [E [n ->]]. destruct o1. split; auto. eexists. reflexivity. Qed.
Lemma oeq_len o1 o2 : oeq o1 o2 -> obLen o2 = obLen o1 /\ obBlock o2 = obBlock o1.
Proof. intros [E [n ->]]. destruct o1; auto. Qed.
Lemma o_ok x y : oeq x y -> orel (Ok (x, true)) (Ok (y, true)).
Proof. intros H. exists y. auto. Qed.
Lemma o_bitsFlush_r cap o1 o2 : oeq o1 o2 -> orel (o_bitsFlush e1 cap o1) (o_bitsFlush e2 cap o2).
Proof.
  intros H. unfold o_bitsFlush. destruct (oeq_len H) as [-> ->]. destruct (Nat.eqb _ _); [apply o_ok; auto|].
  apply o_loop. apply oeq_set; auto.
Qed.
Lemma o_bufferWrite_r cap o1 o2 p : oeq o1 o2 -> orel (o_bufferWrite e1 cap o1 p) (o_bufferWrite e2 cap o2 p).
Proof. intros H. unfold o_bufferWrite. apply o_bind; [apply o_bitsFlush_r; auto|intros; apply o_loop; auto|intros; apply q_loop; auto]. Qed.
Lemma o_bitsLoop_r cap fuel : forall o1 o2 n x, oeq o1 o2 -> orel (o_bitsLoop e1 fuel cap o1 n x) (o_bitsLoop e2 fuel cap o2 n x).
Proof.
  induction fuel as [|f IH]; intros o1 o2 n x H; cbn [o_bitsLoop]; destruct n as [|n]; try exact I; try (apply o_ok; auto; fail). cbv zeta.
  destruct (oeq_len H) as [-> ->]. change (bitsPerBlock e2) with (bitsPerBlock e1). change (blk e2) with (blk e1).
  match goal with |- context [set_ob o1 ?u ?v] => pose proof (oeq_set u v H) as H1; set (p1 := set_ob o1 u v) in *; set (p2 := set_ob o2 u v) in * end. clearbody p1 p2.
  destruct (oeq_len H1) as [-> _]. destruct (Nat.eqb _ _); [|apply IH; auto].
  apply o_bind; [apply o_bitsFlush_r; auto|intros; apply IH; auto|intros; apply q_bitsLoop; auto].
Qed.
Lemma o_bitsWrite_r cap o1 o2 n x : oeq o1 o2 -> orel (o_bitsWrite e1 cap o1 n x) (o_bitsWrite e2 cap o2 n x).
Proof. intros H. unfold o_bitsWrite. change (bitsPerBlock e2) with (bitsPerBlock e1). destruct (oeq_len H) as [-> _]. repeat apply o_assert. apply o_bitsLoop_r; auto. Qed.

Lemma weq_proj x y : weq x y -> w_opt y = w_opt x /\ w_cfg y = w_cfg x /\ w_lz y = w_lz x /\ w_in y = w_in x /\ w_num y = w_num x /\ w_hdr y = w_hdr x /\
  w_state y = w_state x /\ outCRC (w_out y) = outCRC (w_out x) /\ sink (w_out y) = sink (w_out x) /\ werr (w_out y) = werr (w_out x) /\ w_events y = w_events x /\
  outStream (w_out y) = outStream (w_out x) /\ outTotal (w_out y) = outTotal (w_out x).
Proof.
  intros [[EB [n EO]] [k [l E]]]. destruct x as [a b c d o f g h i j], y as [a' b' c' d' o' f' g' h' i' j']. cbn in *. injection E as -> -> -> -> -> -> -> -> ->.
  unfold w_state. cbn. subst o'. destruct o. cbn. repeat split; auto.
Qed.
Lemma weq_out x y o1 o2 : weq x y -> oeq o1 o2 -> weq (set_out x o1) (set_out y o2).
Proof.
  intros [_ [k [l E]]] H. destruct x as [a b c d o f g h i j], y as [a' b' c' d' o' f' g' h' i' j']. cbn in *. injection E as -> -> -> -> -> -> -> -> ->.
  split; [exact H|]. exists k, l. reflexivity.
Qed.
Lemma r_on x y f1 f2 : weq x y -> orel (f1 (w_out x)) (f2 (w_out y)) -> rel (on_out f1 x) (on_out f2 y).
Proof.
  intros W H. unfold on_out. destruct (f1 _) as [[o []]| |]; cbn [rbind rel orel] in *; auto.
  - destruct H as (o' & -> & H). exists (set_out y o'). split; auto. apply weq_out; auto.
  - destruct (f2 _) as [[o' ok]| |]; cbn [rbind]; auto. unfold U. destruct x, y. exact H.
Qed.
Lemma r_buf x y p : weq x y -> rel (w_bufferWrite e1 x p) (w_bufferWrite e2 y p).
Proof. intros W. unfold w_bufferWrite. destruct (weq_proj W) as [-> _]. apply r_on; auto. apply o_bufferWrite_r. apply W. Qed.
Lemma r_bits x y n v : weq x y -> rel (w_bitsWrite e1 x n v) (w_bitsWrite e2 y n v).
Proof. intros W. unfold w_bitsWrite. destruct (weq_proj W) as [-> _]. apply r_on; auto. apply o_bitsWrite_r. apply W. Qed.
Lemma r_flush x y : weq x y -> rel (w_bitsFlush e1 x) (w_bitsFlush e2 y).
Proof. intros W. unfold w_bitsFlush. destruct (weq_proj W) as [-> _]. apply r_on; auto. apply o_bitsFlush_r. apply W. Qed.
Ltac wsolve W := match type of W with weq ?x ?y =>
  let EB := fresh in let n := fresh in let EO := fresh in let k := fresh in let l := fresh in let E := fresh in
  destruct W as [[EB [n EO]] [k [l E]]]; destruct x as [? ? ? ? o ? ? ? ? ?], y as [? ? ? ? o' ? ? ? ? ?]; cbn in EB, EO, E; injection E as -> -> -> -> -> -> -> -> ->; subst o'; destruct o; cbn in EB end.
Lemma r_event x y e : weq x y -> weq (sendEvent x e) (sendEvent y e).
Proof. intros W. wsolve W. split; [split; [assumption|eexists; reflexivity]|]. eexists _, _. reflexivity. Qed.
Lemma r_lz x y l : weq x y -> weq (set_lz x l) (set_lz y l).
Proof. intros W. wsolve W. split; [split; [assumption|eexists; reflexivity]|]. eexists _, _. reflexivity. Qed.
Lemma r_in x y i : weq x y -> weq (set_in x i) (set_in y i).
Proof. intros W. wsolve W. split; [split; [assumption|eexists; reflexivity]|]. eexists _, _. reflexivity. Qed.
Lemma r_hdr x y i : weq x y -> weq (set_hdr x i) (set_hdr y i).
Proof. intros W. wsolve W. split; [split; [assumption|eexists; reflexivity]|]. eexists _, _. reflexivity. Qed.
Lemma r_setstate x y i : weq x y -> weq (w_setstate x i) (w_setstate y i).
Proof. intros W. wsolve W. split; [split; [assumption|eexists; reflexivity]|]. eexists _, _. reflexivity. Qed.
Lemma r_crc x y c : weq x y -> weq (set_out x (set_outcrc (w_out x) c)) (set_out y (set_outcrc (w_out y) c)).
Proof. intros W. wsolve W. split; [split; [assumption|eexists; reflexivity]|]. eexists _, _. reflexivity. Qed.

(** bytes handed over stay: the lemmas of PPrefix.v put together *)
Ltac mono := intros; repeat first
  [ assumption | exact I | apply ho_assert | apply x_buf | apply x_bits | apply x_flush | apply x_event | apply x_opt | apply x_lld | apply x_x
  | apply x_stored | apply x_static | apply x_dynamic | apply x_tokens | apply x_lz | apply x_in | apply x_storeLoop | apply x_compress | apply x_stringZ
  | apply x_gzip | apply x_header | apply x_footer | apply x_setstate | apply x_hdr_open | apply x_ftr_closed | apply x_compressImpl | apply x_guts
  | apply x_flushImpl | apply x_writeLoop
  | match goal with |- ho (U ?p) _ (for_each _ _ _) => apply ho_for; intros end
  | match goal with |- ho (U ?p) _ (rbind _ (fun r => match r with _ => _ end)) => eapply ho_bind with (P := U p); [|intros] end
  | apply ho_let; intros
  | match goal with |- ho _ _ (Ok (_, true)) => cbn [ho] | |- ho _ _ (match ?x with _ => _ end) => destruct x | |- ho _ _ (if ?x then _ else _) => destruct x end ].
Notation bw := (bw_writer e1).
Notation bw' := (bw_writer e2).
Ltac rb L := apply r_bind; [apply L; auto|intros ?x ?y ?W|mono].
Lemma r_stored x y data fin : weq x y -> rel (writeStoredBlock bw x data fin) (writeStoredBlock bw' y data fin).
Proof.
  intros W. unfold writeStoredBlock. apply r_assert. cbv zeta. cbn [bw_writer bw_bitsWrite bw_bitsFlush bw_writeU16le bw_bufferWrite bw_event].
  apply r_bind; [apply r_bits, r_event; auto|intros x1 y1 H1|mono]. rb r_flush. rb r_buf. rb r_buf. rb r_buf. apply r_ok. apply r_event; auto.
Qed.
Lemma r_opt (b : bool) x y n v : weq x y -> rel (if b then Ok (x, true) else w_bitsWrite e1 x n v) (if b then Ok (y, true) else w_bitsWrite e2 y n v).
Proof. intros W. destruct b; [apply r_ok; auto|apply r_bits; auto]. Qed.
Lemma r_lld ll d t x y : weq x y -> rel (encodeLLD bw ll d t x) (encodeLLD bw' ll d t y).
Proof.
  intros W. unfold encodeLLD, bw_writeHC. cbn [bw_writer bw_bitsWrite]. apply r_let. intros [[sl nl] xl]. apply r_let. intros [[sd nd] xd]. destruct sl as [sl|]; [|apply r_ok; auto].
  rb r_bits. rb r_opt. destruct sd as [sd|]; [|apply r_ok; auto]. rb r_bits. rb r_opt. apply r_ok; auto.
Qed.
Lemma r_x hx t x y : weq x y -> rel (encodeX bw hx t x) (encodeX bw' hx t y).
Proof.
  intros W. unfold encodeX, bw_writeHC. cbn [bw_writer bw_bitsWrite]. destruct (symbolX t) as [[sx nx] xx]. destruct sx as [sx|]; [|apply r_ok; auto].
  rb r_bits. rb r_opt. apply r_ok; auto.
Qed.
Lemma r_static x y tokens fin : weq x y -> rel (writeStaticBlock bw x tokens fin) (writeStaticBlock bw' y tokens fin).
Proof.
  intros W. unfold writeStaticBlock. apply r_assert. cbv zeta. cbn [bw_writer bw_bitsWrite bw_event]. apply r_bind; [apply r_bits, r_event; auto|intros x1 y1 H1|mono].
  apply r_bind; [apply r_for; [intros; apply r_lld; auto|mono|apply r_event; auto]|intros x2 y2 H2|mono]. apply r_ok, r_event; auto.
Qed.
Lemma r_dynamic x y ll d tokens fin : weq x y -> rel (writeDynamicBlock e1 bw x ll d tokens fin) (writeDynamicBlock e2 bw' y ll d tokens fin).
Proof.
  intros W. unfold writeDynamicBlock. apply r_assert. cbv zeta. cbn [bw_writer bw_bitsWrite bw_event]. apply r_bind; [apply r_bits, r_event; auto|intros x1 y1 H1|mono].
  apply r_let. intros [xt1 nll]. apply r_let. intros [xt nd]. cbn [e_huff never_failing]. apply r_let. intros fx.
  rb r_bits. rb r_bits. rb r_bits.
  apply r_bind; [apply r_for; [intros; apply r_bits; auto|mono|auto]|intros x5 y5 H5|mono].
  apply r_bind; [apply r_for; [intros; apply r_x; auto|mono|auto]|intros x6 y6 H6|mono].
  apply r_bind; [apply r_for; [intros; apply r_lld; auto|mono|apply r_event; auto]|intros x7 y7 H7|mono]. apply r_ok, r_event; auto.
Qed.
Lemma r_tokens x y data tokens fin : weq x y -> rel (compressTokens e1 bw x data tokens fin) (compressTokens e2 bw' y data tokens fin).
Proof.
  intros W. unfold compressTokens. apply r_let. intros [fll fd]. cbv zeta. apply r_let. intros [dc b1]. apply r_let. intros [sc b2].
  apply r_if; [apply r_stored; auto|]. apply r_if; [apply r_static; auto|apply r_dynamic; auto].
Qed.

Lemma weq_take x y n : weq x y -> weq (fst (inputBufferRead x n)) (fst (inputBufferRead y n)) /\ snd (inputBufferRead x n) = snd (inputBufferRead y n).
Proof. intros W. destruct (weq_proj W) as (P1 & P2 & P3 & P4 & _). unfold inputBufferRead, lz_take. cbn [fst snd]. rewrite P3, P4. split; auto. apply r_in, r_lz; auto. Qed.
Lemma r_storeLoop fuel : forall x y, weq x y -> rel (compressStoreLoop e1 fuel x) (compressStoreLoop e2 fuel y).
Proof.
  induction fuel as [|f IH]; intros x y W; cbn [compressStoreLoop]; destruct (weq_proj W) as (P1 & P2 & P3 & P4 & _); rewrite P3; destruct (lz_buf (w_lz x)) eqn:E; try (apply r_ok; auto; fail); [exact I|].
  destruct (weq_take (N.to_nat storedBlockSize) W) as [K1 K2]. destruct (inputBufferRead x _) as [x1 p], (inputBufferRead y _) as [y1 p']. cbn [fst snd] in K1, K2. subst p'.
  apply r_bind; [apply r_stored; auto|intros; apply IH; auto|mono].
Qed.
Definition rel3 (m1 m2 : res (writer * list N * list token)) : Prop :=
  match m1 with Ok (x, d, t) => exists y, m2 = Ok (y, d, t) /\ weq x y | _ => True end.
Lemma r_slowLoop fuel : forall x y, weq x y -> rel3 (compressSlowLoop e1 fuel x) (compressSlowLoop e2 fuel y).
Proof.
  induction fuel as [|f IH]; intros x y W; cbn [compressSlowLoop]; destruct (weq_proj W) as (P1 & P2 & P3 & P4 & P5 & _); rewrite P3; destruct (lz_buf (w_lz x)) eqn:E; try (eexists; split; [reflexivity|auto]; fail); [exact I|].
  unfold inputBufferAdvance, lz_take. cbv zeta. rewrite ?P1, ?P2, ?P3, ?P4. cbn [e_match never_failing].
  set (m := e_match e1 _ _ _ _). set (l' := LZ _ _ _ _). set (p := firstn _ _). set (x2 := set_in (set_lz x _) _). set (y2 := set_in (set_lz y _) _).
  assert (H2 : weq x2 y2) by (apply r_in, r_lz; auto). clearbody x2 y2. pose proof (IH _ _ H2) as K. destruct m as [[dd len]|].
  - unfold assertb. destruct (3 <=? len)%N; [|exact I]. destruct (1 <=? dd)%N; [|exact I]. destruct (makeCopyToken _ _); cbn [rbind]; try exact I.
    destruct (compressSlowLoop e1 f x2) as [[[x3 d3] t3]| |] eqn:E3; cbn [rbind]; try exact I. destruct K as (y3 & -> & K). cbn [rbind]. eexists. split; [reflexivity|auto].
  - destruct p; [exact I|]. destruct (compressSlowLoop e1 f x2) as [[[x3 d3] t3]| |] eqn:E3; cbn [rbind]; try exact I. destruct K as (y3 & -> & K). cbn [rbind]. eexists. split; [reflexivity|auto].
Qed.
Lemma r_compress x y all : weq x y -> rel (if isStoreConfig (w_cfg x) then compressStore e1 x all else compressSlow e1 x all)
  (if isStoreConfig (w_cfg y) then compressStore e2 y all else compressSlow e2 y all).
Proof.
  intros W. destruct (weq_proj W) as (P1 & P2 & P3 & P4 & _). rewrite P2. apply r_if.
  - unfold compressStore. rewrite P3. apply r_if; [apply r_ok; auto|apply r_storeLoop; auto].
  - unfold compressSlow. rewrite P3. apply r_if; [apply r_ok; auto|].
    match goal with |- context [compressSlowLoop e1 ?n x] => pose proof (r_slowLoop n W) as K; destruct (compressSlowLoop e1 n x) as [[[x1 d] t]| |] end; cbn [rbind]; try exact I.
    destruct K as (y1 & -> & K). cbn [rbind]. apply r_tokens; auto.
Qed.
Lemma r_stringZ x y p : weq x y -> rel (writeStringZ e1 x p) (writeStringZ e2 y p).
Proof. intros W. unfold writeStringZ. destruct (indexByte p 0); [|apply r_buf; auto]. destruct (Nat.eqb _ _); [apply r_buf; auto|exact I]. Qed.
Lemma r_gzip x y : weq x y -> rel (writeHeaderGZIP e1 x) (writeHeaderGZIP e2 y).
Proof.
  intros W. unfold writeHeaderGZIP. cbv zeta. pose proof (r_crc crc_reset W) as W1. set (x1 := set_out x _) in *. set (y1 := set_out y _) in *. clearbody x1 y1.
  destruct (weq_proj W1) as (-> & _ & _ & _ & _ & -> & _). set (h := w_hdr x1). clearbody h.
  apply r_bind; [apply r_buf; auto|intros x2 y2 H2|mono; apply x_gzip_rest; auto].
  apply r_bind; [|intros x3 y3 H3|mono].
  { destruct (h_extra h); [apply r_ok; auto|]. cbv zeta. rb r_buf. apply r_buf; auto. }
  apply r_bind; [destruct (h_name h); [apply r_ok; auto|apply r_stringZ; auto]|intros x4 y4 H4|mono].
  apply r_bind; [destruct (h_comment h); [apply r_ok; auto|apply r_stringZ; auto]|intros x5 y5 H5|mono].
  destruct (weq_proj H5) as (_ & _ & _ & _ & _ & _ & _ & -> & _). apply r_buf; auto.
Qed.

Lemma loop_len e cap fuel : forall o buf, match outputBufferLoop e fuel cap o buf with Ok (o', _) => obLen o' = obLen o | _ => True end.
Proof.
  induction fuel as [|f IH]; intros o buf; cbn [outputBufferLoop]; destruct buf as [|b buf]; auto.
  destruct o as [a b0 bf sk m c t st s e0]. unfold outputBufferFlush. destruct (e_sink e m _) as [[k e']|]; [reflexivity|].
  match goal with |- match outputBufferLoop _ _ _ ?o1 ?b1 with _ => _ end => pose proof (IH o1 b1) as K; destruct (outputBufferLoop e f cap o1 b1) as [[o' ok]| |]; auto end.
Qed.
Lemma flushed_len e w w' : w_bitsFlush e w = Ok (w', true) -> obLen (w_out w') = 0.
Proof.
  unfold w_bitsFlush, on_out, o_bitsFlush. destruct (Nat.eqb_spec (obLen (w_out w)) 0) as [E|E]; cbn [rbind].
  - intros H. injection H as <-. destruct w; exact E.
  - match goal with |- context [outputBufferLoop ?e ?f ?c ?o ?b] => pose proof (@loop_len e c f o b) as K; destruct (outputBufferLoop e f c o b) as [[o' []]| |] end; cbn [rbind]; try discriminate.
    intros H. injection H as <-. destruct w as [? ? ? ? o ? ? ? ? ?], o. exact K.
Qed.
Definition added (o : wout) (p : list N) : wout :=
  match o with WOut a b ob snk n c t st s e => WOut a b (ob ++ p) snk n (crc_update c p) (add64 t (N.of_nat (length p))) (add64 st (N.of_nat (length p))) s e end.
Lemma one_write e cap o p : obLen o = 0 -> length p = 4 -> (lenN (outBuf o) + 4 <= cap)%N ->
  o_bufferWrite e cap o p = Ok (outputBufferFlush e (added o p)).
Proof.
  intros HL HP HC. unfold o_bufferWrite, o_bitsFlush. rewrite HL. cbn [Nat.eqb rbind]. unfold out_fuel. rewrite HP. cbn [Nat.mul Nat.add].
  assert (NN : N.to_nat (N.min (lenN p) (cap - lenN (outBuf o))) = 4) by (unfold lenN at 1; rewrite HP; lia).
  destruct p as [|p0 p]; [discriminate|]. remember 9 as f9 eqn:F9. cbn [outputBufferLoop]. set (q := p0 :: p) in *. rewrite NN.
  assert (E : firstn 4 q = q) by (apply firstn_all2; lia). assert (E' : skipn 4 q = []) by (apply skipn_all2; lia). rewrite E, E'.
  assert (EA : match o with WOut a b ob snk n c t st s e => WOut a b (ob ++ q) snk n (crc_update c q) (add64 t (N.of_nat 4)) (add64 st (N.of_nat 4)) s e end = added o q).
  { unfold added. rewrite HP. destruct o; reflexivity. }
  rewrite EA. destruct (outputBufferFlush e (added o q)) as [o2 []]; auto. subst f9. reflexivity.
Qed.

Lemma r_h_prep x y : weq x y -> weq (PWSim.h_prep e1 x) (PWSim.h_prep e2 y).
Proof.
  intros W. wsolve W. unfold PWSim.h_prep. cbv zeta. cbn. destruct (o_dict w_opt); cbn; (split; [split; [assumption|eexists; reflexivity]|]; eexists _, _; reflexivity).
Qed.
Lemma r_header x y : weq x y -> rel (writeHeader e1 x) (writeHeader e2 y).
Proof.
  intros W. rewrite !PWSim.header_eq. pose proof (r_h_prep W) as W1. destruct (weq_proj W1) as (-> & _).
  apply r_bind.
  - destruct (o_format _); [exact I|apply r_ok; auto| |apply r_gzip; auto]. unfold writeHeaderZlib. destruct (weq_proj W1) as (-> & _). apply r_buf; auto.
  - intros u v H. apply r_ok. unfold PWSim.h_done. cbv zeta. destruct (weq_proj H) as (_ & _ & _ & P & _ & Q & _). rewrite Q. pose proof (r_event (ev_header (w_hdr u)) H) as H'. 
    destruct (weq_proj H') as (_ & _ & _ & -> & _). apply r_in; auto.
  - intros p z H. cbn [ho]. unfold PWSim.h_done. cbv zeta. apply x_in, x_event; auto.
Qed.
Lemma r_footgz x y c : weq x y -> obLen (w_out x) = 0 -> rel (writeFooterGZIP e1 x c) (writeFooterGZIP e2 y c).
Proof.
  intros W HL. unfold writeFooterGZIP, w_bufferWrite. destruct (weq_proj W) as (-> & _ & _ & PI & _).
  assert (HC : (128 <= out_cap (w_opt x))%N). { unfold out_cap. change 128%N with (2 ^ 7)%N. apply N.pow_le_mono_r; lia. }
  assert (HL2 : obLen (w_out y) = 0) by (destruct (oeq_len (proj1 W)) as [-> _]; auto).
  assert (B1 : outBuf (w_out x) = []) by (apply W).
  assert (B2 : outBuf (w_out y) = []) by (destruct W as [[_ [n ->]] _]; destruct (w_out x); exact B1).
  assert (HS : sink (w_out y) = sink (w_out x)) by (destruct (weq_proj W) as (_ & _ & _ & _ & _ & _ & _ & _ & E & _); exact E).
  pose proof (@o_loop) as _. unfold on_out. rewrite !(one_write _ (p := le32 c)); auto; try (rewrite ?B1, ?B2; cbn [lenN length]; unfold lenN; cbn; lia).
  cbn [rbind]. set (p1 := le32 c).
  assert (L1 : length p1 = 4) by reflexivity. clearbody p1.
  assert (FO : exists o1 ok1, outputBufferFlush e1 (added (w_out x) p1) = (o1, ok1) /\ obLen o1 = 0 /\ sink o1 ++ outBuf o1 = sink (w_out x) ++ p1 /\ length (outBuf o1) <= 4).
  { unfold outputBufferFlush. destruct (w_out x) as [a b bf sk n c0 t st s e] eqn:EO. cbn in B1, HL |- *. subst bf b. cbn [app]. destruct (e_sink e1 n p1) as [[k e']|]; eexists _, _; (split; [reflexivity|]); cbn [obLen sink outBuf].
    - split; auto. rewrite <- app_assoc, firstn_skipn. split; auto. rewrite skipn_length. lia.
    - split; auto. rewrite app_nil_r. split; [reflexivity|cbn; lia]. }
  assert (FO2 : exists o2, outputBufferFlush e2 (added (w_out y) p1) = (o2, true) /\ obLen o2 = 0 /\ sink o2 = sink (w_out x) ++ p1 /\ outBuf o2 = []).
  { unfold outputBufferFlush. rewrite <- HS. destruct (w_out y) as [a b bf sk n c0 t st s e] eqn:EO. cbn in B2, HL2 |- *. subst bf b. eexists. split; [reflexivity|]. auto. }
  destruct FO2 as (o2 & F2 & M1 & M2 & M3).
  pose proof (@o_bufferWrite_r (out_cap (w_opt x)) _ _ p1 (proj1 W)) as OR. rewrite !one_write in OR; auto; try (rewrite ?B1, ?B2; unfold lenN; cbn; lia).
  destruct FO as (o1 & ok1 & F1 & N1 & N2 & N3). rewrite F1, F2 in *. cbn [rbind] in *.
  assert (OPT : w_opt (set_out x o1) = w_opt x /\ w_opt (set_out y o2) = w_opt x /\ w_in (set_out x o1) = w_in x /\ w_in (set_out y o2) = w_in x /\ w_out (set_out x o1) = o1 /\ w_out (set_out y o2) = o2).
  { destruct (weq_proj W) as (Q1 & _). destruct x, y; cbn in *. auto 10. }
  destruct OPT as (Q1 & Q2 & Q3 & Q4 & Q5 & Q6). rewrite Q1, Q2, Q3, Q4, Q5, Q6. set (p2 := le32 _). assert (L2 : length p2 = 4) by reflexivity. clearbody p2.
  rewrite !one_write; auto; try (rewrite ?M3; unfold lenN; cbn; lia).
  assert (FY : exists o4, outputBufferFlush e2 (added o2 p2) = (o4, true) /\ sink o4 = sink (w_out x) ++ p1 ++ p2).
  { destruct o2 as [a b bf sk n c0 t st s e]. cbn in *. subst bf b sk. eexists. split; [reflexivity|]. cbn. rewrite <- app_assoc. reflexivity. }
  destruct FY as (o4 & F4 & M4).
  assert (FX : exists o3 ok3, outputBufferFlush e1 (added o1 p2) = (o3, ok3) /\ exists r, sink (w_out x) ++ p1 ++ p2 = sink o3 ++ r).
  { assert (EE : sink (w_out x) ++ p1 ++ p2 = (sink o1 ++ outBuf o1) ++ p2) by (rewrite N2, <- app_assoc; reflexivity). rewrite EE. clear - EE.
    destruct o1 as [a b bf sk n c0 t st s e]. unfold outputBufferFlush, added. cbn [sink outBuf]. destruct (e_sink e1 n (bf ++ p2)) as [[k e']|]; eexists _, _; (split; [reflexivity|]); cbn [sink].
    - eexists (skipn (Nat.min k (length (bf ++ p2))) (bf ++ p2)). rewrite <- !app_assoc, firstn_skipn. reflexivity.
    - exists []. rewrite <- !app_assoc, app_nil_r. reflexivity. }
  destruct FX as (o3 & ok3 & F3 & r & M5). rewrite F3, F4. cbn [rbind andb].
  assert (DEAD : U (sink (w_out (set_out (set_out x o1) o3))) (set_out (set_out y o2) o4)).
  { exists r. destruct x, y. cbn in *. congruence. }
  destruct ok1.
  - destruct OR as (o2' & E2 & OE). injection E2 as <-.
    pose proof (@o_bufferWrite_r (out_cap (w_opt x)) _ _ p2 OE) as OR2. rewrite !one_write in OR2; auto; try (rewrite ?M3; unfold lenN; cbn; lia). rewrite F3, F4 in OR2.
    destruct ok3; cbn [andb rel].
    + destruct OR2 as (o4' & E4 & OE4). injection E4 as <-. eexists. split; [reflexivity|]. apply weq_out; auto. apply weq_out; auto.
    + exact DEAD.
  - cbn [andb rel]. exact DEAD.
Qed.

Lemma r_footer x y : weq x y -> rel (writeFooter e1 x) (writeFooter e2 y).
Proof.
  intros W. unfold writeFooter.
  assert (M : forall p z, U p z -> ho (U p) (U p) (let a32 := inAdler (w_in z) in let c32 := inCRC (w_in z) in let w := sendEvent z (ev_footer a32 c32) in
     let? w := (match o_format (w_opt w) with RawFormat => Ok (w, true) | ZlibFormat => writeFooterZlib e2 w a32 | GZIPFormat => writeFooterGZIP e2 w c32 | DefaultFormat => Panic PAssert end) in
     Ok (sendEvent w (ev_simple StreamCloseEvent), true))).
  { intros p z Z. cbv zeta. pose proof (x_event (ev_footer (inAdler (w_in z)) (inCRC (w_in z))) Z) as Z2. set (x2 := sendEvent z _) in *. clearbody x2. eapply ho_bind with (P := U p); [|mono].
    destruct (o_format (w_opt x2)); [exact I|exact Z2|apply x_buf; auto|]. unfold writeFooterGZIP.
    pose proof (x_buf e2 (le32 (inCRC (w_in z))) Z2) as HA. destruct (w_bufferWrite e2 x2 _) as [[x3 []]| |]; cbn [ho rbind] in *; auto; try exact I.
    + pose proof (x_buf e2 (le32 (inStream (w_in x3) mod two32)) HA) as HC. destruct (w_bufferWrite e2 x3 _) as [[x4 []]| |]; cbn [ho rbind andb] in *; auto; try exact I.
    + pose proof (x_buf e2 (le32 (inStream (w_in x3) mod two32)) HA) as HC. destruct (w_bufferWrite e2 x3 _) as [[x4 []]| |]; cbn [ho rbind andb] in *; auto; try exact I. }
  pose proof (r_flush W) as K. destruct (w_bitsFlush e1 x) as [[x1 []]| |] eqn:EF; cbn [rbind rel] in *; auto.
  - destruct K as (y1 & -> & W1). cbn [rbind]. pose proof (flushed_len EF) as HL. destruct (weq_proj W1) as (_ & _ & _ & -> & _).
    pose proof (r_event (ev_footer (inAdler (w_in x1)) (inCRC (w_in x1))) W1) as W2.
    assert (HL2 : obLen (w_out (sendEvent x1 (ev_footer (inAdler (w_in x1)) (inCRC (w_in x1))))) = 0) by (destruct x1; exact HL).
    set (x2 := sendEvent x1 _) in *. set (y2 := sendEvent y1 _) in *. clearbody x2 y2. destruct (weq_proj W2) as (PO & _).
    apply r_bind; [rewrite PO; destruct (o_format (w_opt x2)); [exact I|apply r_ok; auto|apply r_buf; auto|apply r_footgz; auto]|intros; apply r_ok, r_event; auto|mono].
  - destruct (w_bitsFlush e2 y) as [[y1 []]| |]; cbn [rbind]; auto. pose proof (M _ _ K) as X. match goal with |- match ?m with _ => _ end => destruct m as [[z []]| |]; exact X end.
Qed.
Lemma r_hdr_open x y : weq x y -> rel (let? w := writeHeader e1 x in Ok (w_setstate w openStream, true)) (let? w := writeHeader e2 y in Ok (w_setstate w openStream, true)).
Proof. intros W. apply r_bind; [apply r_header; auto|intros; apply r_ok, r_setstate; auto|mono]. Qed.
Lemma r_ftr_closed x y : weq x y -> rel (let? w := writeFooter e1 x in Ok (w_setstate w closedStream, true)) (let? w := writeFooter e2 y in Ok (w_setstate w closedStream, true)).
Proof. intros W. apply r_bind; [apply r_footer; auto|intros; apply r_ok, r_setstate; auto|mono]. Qed.
Lemma weq_state x y : weq x y -> w_state y = w_state x.
Proof. intros W. apply (weq_proj W). Qed.
Lemma r_compressImpl x y all : weq x y -> rel (compressImpl e1 x all) (compressImpl e2 y all).
Proof.
  intros W. unfold compressImpl. destruct (weq_proj W) as (_ & _ & -> & _). destruct (lz_buf (w_lz x)); [apply r_ok; auto|].
  apply r_bind; [rewrite (weq_state W); destruct (w_state x); try (apply r_ok; auto; fail); apply r_ftr_closed; auto|intros x1 y1 W1|mono].
  apply r_bind; [rewrite (weq_state W1); destruct (w_state x1); try (apply r_ok; auto; fail); apply r_hdr_open; auto|intros x2 y2 W2|mono].
  apply r_compress; auto.
Qed.
Lemma r_guts ft x y : weq x y -> rel (flushGuts e1 x ft) (flushGuts e2 y ft).
Proof.
  intros W. destruct ft; cbn [flushGuts]; [apply r_ok; auto|apply r_static; auto|apply r_stored; auto| |];
    (apply r_bind; [apply r_stored; auto|intros u v H; apply r_ok; destruct (weq_proj H) as (_ & _ & -> & _); try apply r_setstate; apply r_lz; auto|mono]).
Qed.
Lemma fl_mono p w : U p w -> ho (U p) (U p) (fl_tail e2 w).
Proof. intros H. unfold fl_tail. cbn. destruct w; exact H. Qed.
Lemma r_tail x y : weq x y -> rel (fl_tail e1 x) (fl_tail e2 y).
Proof.
  intros W. assert (HU : forall u e, U (sink (w_out (w_fail (set_calls x u e) (IOErr 0)))) y).
  { intros u e. exists []. rewrite app_nil_r. destruct (weq_proj W) as (_ & _ & _ & _ & _ & _ & _ & _ & -> & _). destruct x as [? ? ? ? o ? ? ? ? ?], o; reflexivity. }
  unfold fl_tail. cbv zeta. cbn [e_flushw e_syncw never_failing].
  assert (HF : forall a b e, match @Ok (writer * bool) (set_calls y a b, true) with Ok (z, _) => U (sink (w_out (w_fail x e))) z | _ => True end).
  { intros a b e. exists []. rewrite app_nil_r. destruct (weq_proj W) as (_ & _ & _ & _ & _ & _ & _ & _ & E & _). destruct x as [? ? ? ? o ? ? ? ? ?], o, y; exact E. }
  assert (HT : forall a b c d, weq (set_calls x a b) (set_calls y c d)).
  { intros. destruct W as [W [k [l E]]]. destruct x, y. cbn in *. split; auto. injection E as -> -> -> -> -> -> -> -> ->. eexists _, _. reflexivity. }
  destruct (e_flushw e1 (w_flushes x)) as [e|].
  { cbn [rel]. exists []. rewrite app_nil_r. destruct (weq_proj W) as (_ & _ & _ & _ & _ & _ & _ & _ & E & _). destruct x as [? ? ? ? o ? ? ? ? ?], o, y; exact E. }
  assert (G : forall e, rel (Ok (w_fail (set_calls (set_calls x (S (w_flushes x)) (w_syncs x)) (w_flushes (set_calls x (S (w_flushes x)) (w_syncs x))) (S (w_syncs (set_calls x (S (w_flushes x)) (w_syncs x))))) e, false))
     (Ok (set_calls (set_calls y (S (w_flushes y)) (w_syncs y)) (w_flushes (set_calls y (S (w_flushes y)) (w_syncs y))) (S (w_syncs (set_calls y (S (w_flushes y)) (w_syncs y)))), true))).
  { intros e. exists []. rewrite app_nil_r. destruct (weq_proj W) as (_ & _ & _ & _ & _ & _ & _ & _ & E & _). destruct x as [? ? ? ? o ? ? ? ? ?], o, y; exact E. }
  assert (T : weq (set_calls (set_calls x (S (w_flushes x)) (w_syncs x)) (w_flushes (set_calls x (S (w_flushes x)) (w_syncs x))) (S (w_syncs (set_calls x (S (w_flushes x)) (w_syncs x)))))
     (set_calls (set_calls y (S (w_flushes y)) (w_syncs y)) (w_flushes (set_calls y (S (w_flushes y)) (w_syncs y))) (S (w_syncs (set_calls y (S (w_flushes y)) (w_syncs y)))))).
  { generalize (HT (S (w_flushes x)) (S (w_syncs x)) (S (w_flushes y)) (S (w_syncs y))). destruct x, y. auto. }
  destruct (e_syncw e1 _) as [[]|]; try apply G; apply r_ok; exact T.
Qed.
Lemma r_flushImpl x y ft : weq x y -> rel (flushImpl e1 x ft) (flushImpl e2 y ft).
Proof.
  intros W. change (flushImpl e1 x ft) with
   (let? w := compressImpl e1 x true in
    let? w := (if is_finish ft then match w_state w with noStream => let? w := writeHeader e1 w in Ok (w_setstate w openStream, true) | _ => Ok (w, true) end else Ok (w, true)) in
    let? w := (match w_state w with openStream => flushGuts e1 w ft | _ => Ok (w, true) end) in
    let? w := (match w_state w with closingStream => let? w := writeFooter e1 w in Ok (w_setstate w closedStream, true) | _ => Ok (w, true) end) in fl_tail e1 w).
  change (flushImpl e2 y ft) with
   (let? w := compressImpl e2 y true in
    let? w := (if is_finish ft then match w_state w with noStream => let? w := writeHeader e2 w in Ok (w_setstate w openStream, true) | _ => Ok (w, true) end else Ok (w, true)) in
    let? w := (match w_state w with openStream => flushGuts e2 w ft | _ => Ok (w, true) end) in
    let? w := (match w_state w with closingStream => let? w := writeFooter e2 w in Ok (w_setstate w closedStream, true) | _ => Ok (w, true) end) in fl_tail e2 w).
  apply r_bind; [apply r_compressImpl; auto|intros x1 y1 W1|mono; apply fl_mono; auto].
  apply r_bind; [rewrite (weq_state W1); destruct (is_finish ft); [|apply r_ok; auto]; destruct (w_state x1); try (apply r_ok; auto; fail); apply r_hdr_open; auto|intros x2 y2 W2|mono; apply fl_mono; auto].
  apply r_bind; [rewrite (weq_state W2); destruct (w_state x2); try (apply r_ok; auto; fail); apply r_guts; auto|intros x3 y3 W3|mono; apply fl_mono; auto].
  apply r_bind; [rewrite (weq_state W3); destruct (w_state x3); try (apply r_ok; auto; fail); apply r_ftr_closed; auto|intros x4 y4 W4; apply r_tail; auto|intros; apply fl_mono; auto].
Qed.
Lemma r_writeLoop fuel : forall x y buf, weq x y -> rel (writeLoop e1 fuel x buf) (writeLoop e2 fuel y buf).
Proof.
  induction fuel as [|f IH]; intros x y buf W; cbn [writeLoop]; destruct buf as [|b buf]; try (apply r_ok; auto; fail); [exact I|].
  destruct (weq_proj W) as (_ & _ & -> & _). destruct (lz_write _ _) as [[l nn] full]. cbv zeta. apply r_bind; [apply r_compressImpl, r_lz; auto|intros; apply IH; auto|mono].
Qed.
End Fail.
