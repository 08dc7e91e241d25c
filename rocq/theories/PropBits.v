(** Theorems about bit packing, the dry run of a block, the symbols of RFC 1951
    section 3.2.5 and the code length code, and the choice of the block type. *)
From Verif Require Import Base SpecChecksum SpecHuffman SpecDeflate SpecEvents MChecksum PChecksum MToken MCommon MWriter MReader SpecLib SpecReader MSession
  PToken PHuffman PTree PBits PActs PBlocks PCompress PGram PInput POutput PDecode PDynamic PBlockDec Demo PDemo.

(** ** C20: bit packing.  Specification: bit strings are appended least
    significant bit first; byte strings start at a byte boundary. *)
Inductive put := PutBits (n : nat) (x : N) | PutBytes (p : list N) | PutAlign.
Definition align (acc : list bool) : list bool := acc ++ repeat false ((8 - length acc mod 8) mod 8).
Definition put_spec (acc : list bool) (a : put) : list bool :=
  match a with
  | PutBits n x => acc ++ bits_of_N n x
  | PutBytes p => align acc ++ bits_of_bytes p
  | PutAlign => align acc
  end.
(** The methods of the Writer. *)
Definition put_do (env : wenv) (w : writer) (a : put) : res (writer * bool) :=
  match a with
  | PutBits n x => w_bitsWrite env w n x
  | PutBytes p => w_bufferWrite env w p
  | PutAlign => w_bitsFlush env w
  end.
Fixpoint puts (env : wenv) (w : writer) (l : list put) : res (writer * bool) :=
  match l with
  | [] => Ok (w, true)
  | a :: r => let? w := put_do env w a in puts env w r
  end.
Definition put_ok (a : put) : Prop :=
  match a with PutBits n _ => n <= 32 | PutBytes p => bytes_ok p | PutAlign => True end.

Definition act_of (a : put) : act :=
  match a with PutBits n x => ABits n x | PutBytes p => ABuf p | PutAlign => AFlush end.
Lemma puts_run env l : forall w, puts env w l = run (bw_writer env) (map act_of l) w.
Proof.
  induction l as [|a l IH]; intros w; cbn [puts map]; auto. rewrite run_cons.
  destruct a; cbn [put_do act_of do_act bw_writer bw_bitsWrite bw_bufferWrite bw_bitsFlush]; apply andthen_ext; auto.
Qed.
Lemma put_bits_acts l : forall acc, acc ++ acts_bits (length acc) (map act_of l) = fold_left put_spec l acc.
Proof.
  induction l as [|a l IH]; intros acc; cbn [map acts_bits fold_left]; [apply app_nil_r|].
  rewrite app_assoc, <- app_length, IH. f_equal.
  destruct a; cbn [act_of act_bits put_spec]; unfold align, pad8; rewrite ?app_assoc; auto.
Qed.
Lemma puts_ok l : Forall put_ok l -> acts_ok (map act_of l).
Proof. induction 1 as [|a l H _ IH]; constructor; auto. destruct a; auto. Qed.

Lemma new_out_ok env opts : bytesPerBlock env = 4 \/ bytesPerBlock env = 8 ->
  out_ok env (w_out (newWriter opts)) /\ counters_ok (w_out (newWriter opts)) /\ obits (w_out (newWriter opts)) = [].
Proof.
  intros H. destruct (bpb_cases H) as [E|E]; (split; [unfold out_ok; rewrite E; cbn; unfold bytes_ok, two32; repeat split; auto; lia|split; [split; reflexivity|reflexivity]]).
Qed.

Lemma puts_flushed env opts l w' : (bytesPerBlock env = 4 \/ bytesPerBlock env = 8) -> Forall put_ok l ->
  puts env (newWriter opts) (l ++ [PutAlign]) = Ok (w', true) -> obLen (w_out w') = 0.
Proof.
  intros Hb Hl. destruct (@new_out_ok env opts Hb) as [O1 [O2 O3]].
  rewrite puts_run, map_app, run_app. destruct (run_writer Hb (puts_ok Hl) O1 O2) as [w1 [ok1 [E1 R1]]]. rewrite E1. cbn [rbind].
  destruct ok1; [|discriminate].
  cbn [map act_of]. rewrite run_cons. cbn [do_act bw_writer bw_bitsFlush]. unfold w_bitsFlush, on_out.
  destruct R1 as [_ [[_ [C1 [P1 _]]] _]].
  destruct (@o_bitsFlush_ok env Hb (cap_of w1) (w_out w1) (PActs.cap_pos w1) P1 C1) as [o [ok [E2 [L _]]]].
  unfold cap_of in E2. rewrite E2. cbn [rbind]. destruct ok; cbn [run for_each rbind]; intros E3; inversion E3; subst. rewrite w_out_set. exact L.
Qed.

Theorem C20_bit_packing :
  forall env opts l, (bytesPerBlock env = 4 \/ bytesPerBlock env = 8) -> Forall put_ok l ->
    (forall n b, e_sink env n b = None) ->
    exists w', puts env (newWriter opts) (l ++ [PutAlign]) = Ok (w', true) /\
      bits_of_bytes (sink (w_out w')) = align (fold_left put_spec l []).
Proof.
  intros env opts l Hb Hl HS. destruct (@new_out_ok env opts Hb) as [O1 [O2 O3]].
  assert (HL : Forall put_ok (l ++ [PutAlign])) by (apply Forall_app; split; auto; repeat constructor).
  destruct (run_writer Hb (puts_ok HL) O1 O2) as [w' [ok [E R]]]. rewrite <- puts_run in E.
  destruct R as [_ [R _]]. destruct ok.
  2:{ destruct R as [[_ [n [buf [k [e [F _]]]]]] _]. rewrite HS in F. discriminate. }
  exists w'. split; auto. destruct R as [_ [_ [R1 R2]]]. rewrite O3 in R2. cbn [app length] in R2.
  change 0 with (length (@nil bool)) in R2. rewrite <- (app_nil_l (acts_bits _ _)), put_bits_acts, fold_left_app in R2. cbn [fold_left put_spec] in R2.
  destruct R1 as [Q1 [Q2 [Q3 _]]]. rewrite <- R2. unfold obits. rewrite Q1, app_nil_r.
  assert (Z : obLen (w_out w') = 0) by exact (puts_flushed Hb Hl E).
  rewrite Z. cbn [bits_of_N]. now rewrite app_nil_r.
Qed.

(** Reading gives the bits back, for either block size of the reading side and
    any chunking of the source. *)
Fixpoint reads (env : renv) (i : ist) (ns : list nat) : res (ist * list (option N)) :=
  match ns with
  | [] => Ok (i, [])
  | n :: r => let* (i, v) := getBits env i n in let* (i, vs) := reads env i r in Ok (i, v :: vs)
  end.
Definition fields_bits (fs : list (nat * N)) : list bool := flat_map (fun f => bits_of_N (fst f) (snd f)) fs.
Lemma reads_spec env (Hb : r_bpb env = 4 \/ r_bpb env = 8) fs rest : forall i, iok i -> bok i -> ibl i < 8 ->
  Forall (fun f => fst f <= 24) fs -> av i = fields_bits fs ++ rest ->
  exists i', reads env i (map fst fs) = Ok (i', map (fun f => Some (snd f mod 2 ^ N.of_nat (fst f))%N) fs) /\ av i' = rest.
Proof.
  induction fs as [|[n x] fs IH]; intros i H HB H8 HF E; cbn [map reads fields_bits flat_map fst snd] in *.
  - exists i. auto.
  - inversion HF as [|? ? Hn HF']; subst. cbn [fst] in Hn.
    destruct (getBits_spec Hb H HB H8 (n := n)) as [i1 [out [G1 [[p G2] [G3 G4]]]]]; [destruct (r_bits_cases Hb); lia|].
    rewrite G1. cbn [rbind]. rewrite <- app_assoc in E. destruct out as [v|].
    + destruct G4 as [G4 [G5 G6]]. rewrite E in G6.
      assert (A : v = (x mod 2 ^ N.of_nat n)%N /\ av i1 = fields_bits fs ++ rest).
      { rewrite <- (bits_of_N_mod n x) in G6. apply bits_app_inj in G6; auto.
        - destruct G6 as [G6 G7]. split; auto.
        - apply N.mod_lt, N.pow_nonzero. lia. }
      destruct A as [-> A]. destruct (iext_iok H G2) as [K _]. destruct (IH i1 K G3 G4 HF' A) as [i' [I1 I2]].
      rewrite I1. cbn [rbind]. eauto.
    + exfalso. destruct G4 as [G4 _]. rewrite E, app_length, length_bits_of_N in G4. lia.
Qed.
Theorem C20_bits_round_trip :
  forall env renv opts ropts fs w' src, (bytesPerBlock env = 4 \/ bytesPerBlock env = 8) -> (r_bpb renv = 4 \/ r_bpb renv = 8) ->
    Forall (fun f => fst f <= 24) fs ->
    puts env (newWriter opts) (map (fun f => PutBits (fst f) (snd f)) fs ++ [PutAlign]) = Ok (w', true) ->
    polite_src src -> src_bytes src = sink (w_out w') ->
    exists i, reads renv (r_in (newReader src ropts)) (map fst fs) = Ok (i, map (fun f => Some (snd f mod 2 ^ N.of_nat (fst f))%N) fs).
Proof.
  intros env renv opts ropts fs w' src Hb Hr HF E HP HE.
  destruct (@new_out_ok env opts Hb) as [O1 [O2 O3]].
  set (l := map (fun f => PutBits (fst f) (snd f)) fs) in *.
  assert (Hl : Forall put_ok (l ++ [PutAlign])).
  { apply Forall_app. split; [|repeat constructor]. apply Forall_map. eapply Forall_impl; [|exact HF]. intros a Ha. cbn in *. lia. }
  destruct (run_writer Hb (puts_ok Hl) O1 O2) as [w1 [ok [E1 R]]]. rewrite <- puts_run in E1. rewrite E in E1. inversion E1; subst w1 ok. clear E1.
  destruct R as [_ [[_ [R0 [R1 R2]]] _]]. rewrite O3 in R2. cbn [app length] in R2.
  change 0 with (length (@nil bool)) in R2. rewrite <- (app_nil_l (acts_bits _ _)), put_bits_acts, fold_left_app in R2. cbn [fold_left put_spec] in R2.
  assert (F : forall acc, fold_left put_spec l acc = acc ++ fields_bits fs).
  { unfold l. clear. induction fs as [|f fs IH]; intros acc; cbn [map fold_left fields_bits flat_map]; [now rewrite app_nil_r|].
    rewrite IH. cbn [put_spec]. rewrite <- app_assoc. auto. }
  rewrite F in R2. cbn [app] in R2. unfold align in R2.
  assert (HA : exists rest, bits_of_bytes (sink (w_out w')) = fields_bits fs ++ rest).
  { destruct R1 as [Q1 [Q2 [Q3 _]]]. unfold obits in R2. rewrite Q1, app_nil_r in R2.
    assert (Z : obLen (w_out w') = 0) by (apply Forall_app in Hl; exact (puts_flushed Hb (proj1 Hl) E)). rewrite Z in R2.
    cbn [bits_of_N] in R2. rewrite app_nil_r in R2. eauto. }
  destruct HA as [rest HA].
  destruct (@reads_spec renv Hr fs rest (r_in (newReader src ropts))) as [i [I1 _]]; eauto.
  - constructor; try reflexivity; auto. cbn. rewrite HE. apply R1.
  - reflexivity.
  - cbn. lia.
  - unfold av. cbn. rewrite HE. exact HA.
Qed.
Example C20_example : exists w', puts demo_wenv (newWriter []) [PutBits 3 5%N; PutBits 14 10000%N; PutBytes [1; 2; 255]%N; PutBits 31 77777%N; PutAlign] = Ok (w', true)
  /\ sink (w_out w') = [133; 56; 1; 1; 2; 255; 209; 47; 1; 0]%N.
Proof. eexists. split; vm_compute; reflexivity. Qed.

(** ** C21: the dry run counts exactly the bits the real write produces.
    [bits_out w]: number of bits the Writer has produced so far (delivered and pending). *)
Definition bits_out (w : writer) : nat := 8 * length (sink (w_out w)) + obLen (w_out w).

Section Dry.
Variable env : wenv.
Hypothesis Hbpb : bytesPerBlock env = 4 \/ bytesPerBlock env = 8.
Variable base : nat.
Definition dryR (n : N) (w : writer) : Prop :=
  out_ok env (w_out w) /\ counters_ok (w_out w) /\ exists k, bits_out w = base + k /\ n = cnt k.
Definition dry (m1 : res (N * bool)) (m2 : res (writer * bool)) : Prop :=
  (exists w, m2 = Ok (w, false)) \/
  match m1 with
  | Ok (n, true) => exists w, m2 = Ok (w, true) /\ dryR n w
  | Ok (_, false) => False
  | Panic p => m2 = Panic p
  | NoFuel => m2 = NoFuel
  end.
Lemma dry_ret n w : dryR n w -> dry (Ok (n, true)) (Ok (w, true)).
Proof. right. eauto. Qed.
Lemma dry_bind m1 m2 k1 k2 : dry m1 m2 -> (forall n w, dryR n w -> dry (k1 n) (k2 w)) ->
  dry (let? n := m1 in k1 n) (let? w := m2 in k2 w).
Proof.
  intros [[w ->]|H] HK; [left; cbn [rbind]; eauto|].
  destruct m1 as [[n [|]]| |]; [|contradiction|subst; right; reflexivity..].
  destruct H as [w [-> H]]. cbn [rbind]. apply HK; auto.
Qed.
Lemma dry_rbind {A} (m : res A) k1 k2 : (forall a, dry (k1 a) (k2 a)) -> dry (let* a := m in k1 a) (let* a := m in k2 a).
Proof. intros H. destruct m; cbn [rbind]; auto; right; reflexivity. Qed.
Lemma obits_out w : out_ok env (w_out w) -> length (obits (w_out w)) = bits_out w.
Proof. intros [H _]. apply obits_len. auto. Qed.
Lemma dry_bits n w sz x : dryR n w -> dry (bw_bitsWrite (bitcounter env) n sz x) (bw_bitsWrite (bw_writer env) w sz x).
Proof.
  intros [H1 [H2 [k [H3 ->]]]]. cbn [bitcounter bw_writer bw_bitsWrite]. unfold assertb.
  destruct (Nat.leb_spec sz (bitsPerBlock env)) as [L|L].
  - unfold w_bitsWrite, on_out. destruct (@o_bitsWrite_ok env Hbpb (out_cap (w_opt w)) (w_out w) sz x (PActs.cap_pos w) H1 H2 L) as [o [ok [E R]]].
    rewrite E. cbn [rbind]. destruct ok; [right|left; eauto]. destruct R as [_ [R1 [R2 R3]]].
    rewrite (cnt_add Hbpb). eexists. split; [reflexivity|]. split; rewrite ?w_out_set; auto. split; auto. exists (k + sz). split; auto.
    apply (f_equal (@length _)) in R3. rewrite app_length, length_bits_of_N in R3. rewrite obits_len in R3 by apply R2. rewrite obits_out in R3 by auto.
    unfold bits_out at 1. rewrite w_out_set. lia.
  - right. unfold w_bitsWrite, on_out, o_bitsWrite, assertb. destruct (Nat.leb_spec (obLen (w_out w)) (bitsPerBlock env)) as [L1|L1]; [|destruct H1 as [_ [_ [? _]]]; lia].
    destruct (Nat.leb_spec sz (bitsPerBlock env)); [lia|]. reflexivity.
Qed.
Lemma dry_event n w e : dryR n w -> dryR (bw_event (bitcounter env) n e) (bw_event (bw_writer env) w e).
Proof. intros H. cbn [bitcounter bw_writer bw_event]. unfold dryR, bits_out in *. destruct w; exact H. Qed.
Lemma dry_for {A} (f1 : A -> N -> res (N * bool)) f2 l : (forall a n w, dryR n w -> dry (f1 a n) (f2 a w)) ->
  forall n w, dryR n w -> dry (for_each f1 l n) (for_each f2 l w).
Proof.
  intros H. induction l as [|a l IH]; intros n w HR; cbn [for_each]; [apply dry_ret; auto|].
  apply dry_bind; auto.
Qed.
Ltac drystep := first [apply dry_ret; assumption | apply dry_bits; assumption | apply dry_bind; [|intros ? ? ?] | apply dry_rbind; intros ?].
Lemma dry_hc n w hc : dryR n w -> dry (bw_writeHC (bitcounter env) n hc) (bw_writeHC (bw_writer env) w hc).
Proof. intros H. apply dry_bits. auto. Qed.
Lemma dry_opt (b : bool) n w sz x : dryR n w ->
  dry (if b then Ok (n, true) else bw_bitsWrite (bitcounter env) n sz x) (if b then Ok (w, true) else bw_bitsWrite (bw_writer env) w sz x).
Proof. intros H. destruct b; [apply dry_ret; auto|apply dry_bits; auto]. Qed.
Lemma dry_lld ll d t n w : dryR n w -> dry (encodeLLD (bitcounter env) ll d t n) (encodeLLD (bw_writer env) ll d t w).
Proof.
  intros H. unfold encodeLLD. apply dry_rbind. intros [[sl nl] xl]. apply dry_rbind. intros [[sd nd] xd].
  destruct sl as [sl|]; [|apply dry_ret; auto].
  apply dry_bind; [apply dry_hc; auto|]. intros n1 w1 H1. apply dry_bind; [apply dry_opt; auto|]. intros n2 w2 H2.
  destruct sd as [sd|]; [|apply dry_ret; auto].
  apply dry_bind; [apply dry_hc; auto|]. intros n3 w3 H3. apply dry_bind; [apply dry_opt; auto|]. intros n4 w4 H4. apply dry_ret; auto.
Qed.
Lemma dry_x x t n w : dryR n w -> dry (encodeX (bitcounter env) x t n) (encodeX (bw_writer env) x t w).
Proof.
  intros H. unfold encodeX. destruct (symbolX t) as [[sx nx] xx]. destruct sx as [sx|]; [|apply dry_ret; auto].
  apply dry_bind; [apply dry_hc; auto|]. intros n1 w1 H1. apply dry_bind; [apply dry_opt; auto|]. intros n2 w2 H2. apply dry_ret; auto.
Qed.
Lemma dry_assert b m1 m2 : dry m1 m2 -> dry (assertb b m1) (assertb b m2).
Proof. intros H. destruct b; cbn [assertb]; auto. right. reflexivity. Qed.
Lemma dry_static tokens fin n w : dryR n w -> dry (writeStaticBlock (bitcounter env) n tokens fin) (writeStaticBlock (bw_writer env) w tokens fin).
Proof.
  intros H. unfold writeStaticBlock. apply dry_assert. cbv zeta. apply dry_bind; [apply dry_bits, dry_event; auto|]. intros n1 w1 H1.
  apply dry_bind; [apply dry_for; [intros; apply dry_lld; auto|apply dry_event; auto]|]. intros n2 w2 H2. apply dry_ret, dry_event; auto.
Qed.
Lemma dry_dynamic sll sd tokens fin n w : dryR n w ->
  dry (writeDynamicBlock env (bitcounter env) n sll sd tokens fin) (writeDynamicBlock env (bw_writer env) w sll sd tokens fin).
Proof.
  intros H. unfold writeDynamicBlock. apply dry_assert. cbv zeta. apply dry_bind; [apply dry_bits, dry_event; auto|]. intros n1 w1 H1.
  apply dry_rbind. intros [xt1 nll]. apply dry_rbind. intros [xt nd]. apply dry_rbind. intros fx.
  apply dry_bind; [apply dry_bits; auto|]. intros n2 w2 H2. apply dry_bind; [apply dry_bits; auto|]. intros n3 w3 H3.
  apply dry_bind; [apply dry_bits; auto|]. intros n4 w4 H4.
  apply dry_bind; [apply dry_for; [intros; apply dry_bits; auto|auto]|]. intros n5 w5 H5.
  apply dry_bind; [apply dry_for; [intros; apply dry_x; auto|auto]|]. intros n6 w6 H6.
  apply dry_bind; [apply dry_for; [intros; apply dry_lld; auto|apply dry_event; auto]|]. intros n7 w7 H7. apply dry_ret, dry_event; auto.
Qed.
End Dry.

(** For every token list, every pair of codes and every state of the Writer's
    output side: if the dry run predicts [n] bits, the real write either fails
    because the underlying writer does, or adds exactly [n] bits (counters are
    64 bits wide); and it panics exactly if the dry run does. *)
Definition predicts (dryrun : res (N * bool)) (w : writer) (real : res (writer * bool)) : Prop :=
  (exists w', real = Ok (w', false)) \/
  match dryrun with
  | Ok (n, ok) => ok = true /\ exists w', real = Ok (w', true) /\ exists k, bits_out w' = bits_out w + k /\ n = (N.of_nat k mod 2 ^ 64)%N
  | Panic p => real = Panic p
  | NoFuel => real = NoFuel
  end.
Lemma dry_predicts env w m1 m2 : dry env (bits_out w) m1 m2 -> predicts m1 w m2.
Proof.
  intros [H|H]; [left; auto|]. right. destruct m1 as [[n [|]]| |]; auto; try contradiction.
  split; auto. destruct H as [w' [E [_ [_ H]]]]. eauto.
Qed.
Theorem C21_static_prediction_exact :
  forall env w tokens fin, (bytesPerBlock env = 4 \/ bytesPerBlock env = 8) -> out_ok env (w_out w) -> counters_ok (w_out w) ->
    predicts (writeStaticBlock (bitcounter env) 0%N tokens fin) w (writeStaticBlock (bw_writer env) w tokens fin).
Proof.
  intros env w tokens fin Hb H1 H2. eapply dry_predicts, dry_static; auto. split; auto. split; auto. exists 0. split; [lia|reflexivity].
Qed.
Theorem C21_dynamic_prediction_exact :
  forall env w sll sd tokens fin, (bytesPerBlock env = 4 \/ bytesPerBlock env = 8) -> out_ok env (w_out w) -> counters_ok (w_out w) ->
    predicts (writeDynamicBlock env (bitcounter env) 0%N sll sd tokens fin) w (writeDynamicBlock env (bw_writer env) w sll sd tokens fin).
Proof.
  intros env w sll sd tokens fin Hb H1 H2. eapply dry_predicts, dry_dynamic; auto. split; auto. split; auto. exists 0. split; [lia|reflexivity].
Qed.
