(** The block writers seen as lists of actions on a bit sink, and what running
    such a list does to the Writer and to the bit counter. *)
From Verif Require Import Base SpecHuffman MChecksum PChecksum MToken MCommon MWriter PBits.

Inductive act :=
| ABits (n : nat) (x : N) | AFlush | AU16 (x : N) | ABuf (p : list N) | AEv (e : pre_event).

Definition do_act {S} (bw : bitwriter S) (a : act) (s : S) : res (S * bool) :=
  match a with
  | ABits n x => bw_bitsWrite bw s n x
  | AFlush => bw_bitsFlush bw s
  | AU16 x => bw_writeU16le bw s x
  | ABuf p => bw_bufferWrite bw s p
  | AEv e => Ok (bw_event bw s e, true)
  end.
Definition run {S} (bw : bitwriter S) (l : list act) (s : S) : res (S * bool) := for_each (do_act bw) l s.

Definition act_bits (pos : nat) (a : act) : list bool :=
  match a with
  | ABits n x => bits_of_N n x
  | AFlush => repeat false (pad8 pos)
  | AU16 x => repeat false (pad8 pos) ++ bits_of_bytes (le16 x)
  | ABuf p => repeat false (pad8 pos) ++ bits_of_bytes p
  | AEv _ => []
  end.
Fixpoint acts_bits (pos : nat) (l : list act) : list bool :=
  match l with
  | [] => []
  | a :: r => act_bits pos a ++ acts_bits (pos + length (act_bits pos a)) r
  end.
Definition act_evs (a : act) : list pre_event := match a with AEv e => [e] | _ => [] end.
Definition acts_evs (l : list act) : list pre_event := flat_map act_evs l.
Definition act_ok (a : act) : Prop :=
  match a with ABits n _ => n <= 32 | ABuf p => bytes_ok p | _ => True end.
Definition acts_ok (l : list act) : Prop := Forall act_ok l.

(** ** Sequencing *)
Definition seqb {S T} (x : res (S * bool)) (k : S -> res (T * bool)) (f : S -> T) : res (T * bool) :=
  rbind x (fun r => match r with (s, true) => k s | (s, false) => Ok (f s, false) end).

Lemma andthen_ext {S} (x : res (S * bool)) (k k' : S -> res (S * bool)) :
  (forall s, k s = k' s) -> (let? s := x in k s) = (let? s := x in k' s).
Proof. intros H. destruct x as [[s []]| |]; cbn [rbind]; auto. Qed.

Lemma andthen_assoc {S} (x : res (S * bool)) (k k' : S -> res (S * bool)) :
  (let? s := (let? s := x in k s) in k' s) = (let? s := x in let? s := k s in k' s).
Proof. destruct x as [[s []]| |]; cbn [rbind]; auto. Qed.

Lemma for_each_app {S A} (f : A -> S -> res (S * bool)) l1 l2 s :
  for_each f (l1 ++ l2) s = (let? s := for_each f l1 s in for_each f l2 s).
Proof.
  revert s; induction l1 as [|x l1 IH]; intros s; cbn [for_each app]; auto.
  rewrite andthen_assoc. apply andthen_ext. auto.
Qed.
Lemma run_app {S} (bw : bitwriter S) l1 l2 s : run bw (l1 ++ l2) s = (let? s := run bw l1 s in run bw l2 s).
Proof. apply for_each_app. Qed.
Lemma run_cons {S} (bw : bitwriter S) a l s : run bw (a :: l) s = (let? s := do_act bw a s in run bw l s).
Proof. reflexivity. Qed.

Lemma for_each_run {S A} (bw : bitwriter S) (f : A -> S -> res (S * bool)) (g : A -> list act) l s :
  (forall x s, In x l -> f x s = run bw (g x) s) -> for_each f l s = run bw (flat_map g l) s.
Proof.
  revert s; induction l as [|x l IH]; intros s H; cbn [for_each flat_map]; auto.
  rewrite run_app, (H x s) by (left; auto). apply andthen_ext. intros s'. apply IH.
  intros y s'' Hy. apply H. right. auto.
Qed.

Lemma acts_bits_app pos l1 l2 :
  acts_bits pos (l1 ++ l2) = acts_bits pos l1 ++ acts_bits (pos + length (acts_bits pos l1)) l2.
Proof.
  revert pos; induction l1 as [|a l1 IH]; intros pos; cbn [app acts_bits].
  - cbn [length]. now rewrite Nat.add_0_r.
  - rewrite IH, app_length, <- app_assoc. do 3 f_equal. lia.
Qed.

Lemma act_bits_shift k pos a : act_bits (8 * k + pos) a = act_bits pos a.
Proof. destruct a; unfold act_bits; rewrite ?pad8_add8; reflexivity. Qed.
Lemma acts_bits_shift k pos l : acts_bits (8 * k + pos) l = acts_bits pos l.
Proof.
  revert pos; induction l as [|a l IH]; intros pos; cbn [acts_bits]; auto.
  rewrite act_bits_shift. f_equal. rewrite <- Nat.add_assoc. apply IH.
Qed.

Lemma acts_evs_app a b : acts_evs (a ++ b) = acts_evs a ++ acts_evs b.
Proof. apply flat_map_app. Qed.

Lemma bits_le16 x : bits_of_bytes (le16 x) = bits_of_N 16 x.
Proof. apply (bits_le_bytes 2 x). Qed.
Lemma bits_le32 x : bits_of_bytes (le32 x) = bits_of_N 32 x.
Proof.
  change 32 with (8 * 4). rewrite <- (bits_le_bytes 4 x). f_equal. cbn [le_bytes]. unfold le32.
  rewrite !N.div_div by lia. reflexivity.
Qed.

(** ** The bit counter *)
Section Env.
Variable env : wenv.
Hypothesis Hbpb : bytesPerBlock env = 4 \/ bytesPerBlock env = 8.
Notation bpb := (bitsPerBlock env).

Definition cnt (pos : nat) : N := (N.of_nat pos mod two64)%N.

Lemma cnt_add pos n : add64 (cnt pos) (N.of_nat n) = cnt (pos + n).
Proof. unfold add64, cnt. rewrite N.add_mod_idemp_l by discriminate. f_equal. lia. Qed.

Lemma bc_flush_cnt pos : bc_flush (cnt pos) = cnt (pos + pad8 pos).
Proof.
  unfold bc_flush. change 7%N with (N.ones 3). rewrite N.land_ones. change (2 ^ 3)%N with 8%N.
  assert (E : (cnt pos mod 8 = N.of_nat (pos mod 8))%N).
  { unfold cnt, two64. rewrite Nat2N.inj_mod. change (N.of_nat 8) with 8%N.
    assert (A : (18446744073709551616 = 8 * 2305843009213693952)%N) by reflexivity. rewrite A.
    rewrite N.mod_mul_r by lia.
    rewrite N.mul_comm, N.mod_add by lia. rewrite N.mod_mod by lia. reflexivity. }
  rewrite E. unfold pad8.
  assert (M : pos mod 8 < 8) by (apply Nat.mod_upper_bound; lia).
  destruct (N.eqb_spec (N.of_nat (pos mod 8)) 0) as [H|H].
  - assert (H0 : pos mod 8 = 0) by lia. rewrite H0. cbn [Nat.sub]. change (8 mod 8) with 0. f_equal. lia.
  - rewrite (Nat.mod_small (8 - pos mod 8)) by lia.
    replace (8 - N.of_nat (pos mod 8))%N with (N.of_nat (8 - pos mod 8)) by lia. apply cnt_add.
Qed.

Lemma run_counter l : acts_ok l -> forall pos,
  run (bitcounter env) l (cnt pos) = Ok (cnt (pos + length (acts_bits pos l)), true).
Proof.
  pose proof (bpb_cases Hbpb) as Hb.
  induction 1 as [|a l Ha Hl IH]; intros pos.
  - cbn. rewrite Nat.add_0_r. reflexivity.
  - rewrite run_cons. cbn [acts_bits]. rewrite app_length, Nat.add_assoc.
    assert (E : do_act (bitcounter env) a (cnt pos) = Ok (cnt (pos + length (act_bits pos a)), true)).
    { destruct a as [n x| |x|p|e]; cbn [do_act bitcounter bw_bitsWrite bw_bitsFlush bw_writeU16le bw_bufferWrite bw_event act_bits].
      - cbn [act_ok] in Ha. unfold assertb. destruct (Nat.leb_spec n bpb); [|lia].
        rewrite length_bits_of_N, cnt_add. reflexivity.
      - rewrite bc_flush_cnt, repeat_length. reflexivity.
      - rewrite bc_flush_cnt, app_length, repeat_length, length_bits_of_bytes. cbn [length le16].
        change 16%N with (N.of_nat (8 * 2)). rewrite cnt_add. do 3 f_equal. lia.
      - rewrite bc_flush_cnt, app_length, repeat_length, length_bits_of_bytes.
        replace (lenN p * 8)%N with (N.of_nat (8 * length p)) by (unfold lenN; lia). rewrite cnt_add. do 3 f_equal. lia.
      - cbn [length]. rewrite Nat.add_0_r. reflexivity. }
    rewrite E. cbn [rbind]. apply IH.
Qed.

(** ** The Writer *)
Definition w_frame (w w' : writer) : Prop :=
  w_opt w' = w_opt w /\ w_cfg w' = w_cfg w /\ w_lz w' = w_lz w /\ w_in w' = w_in w /\
  w_num w' = w_num w /\ w_hdr w' = w_hdr w /\ w_flushes w' = w_flushes w /\ w_syncs w' = w_syncs w.
Lemma w_frame_refl w : w_frame w w.
Proof. repeat split. Qed.
Lemma w_frame_trans a b c : w_frame a b -> w_frame b c -> w_frame a c.
Proof. unfold w_frame. intuition congruence. Qed.

Definition mk_ev (w : writer) (t s : N) (p : pre_event) : event :=
  Event (p_type p) (inTotal (w_in w)) (inStream (w_in w)) t s (w_num w) (o_format (w_opt w))
        (p_header p) (p_block p) (p_trees p) (p_footer p).

(** The events [evs] were sent for [pres], the k-th when between [k] and [k']
    bytes (counted from a moment when the counters were [t] and [s]) had been
    handed over. *)
Inductive EvTrace (w : writer) (t s : N) : N -> N -> list pre_event -> list event -> Prop :=
| et_nil k k' : (k <= k')%N -> EvTrace w t s k k' [] []
| et_cons k k1 k' p pres evs : (k <= k1)%N -> EvTrace w t s k1 k' pres evs ->
    EvTrace w t s k k' (p :: pres) (mk_ev w (add64 t k1) (add64 s k1) p :: evs).

Lemma EvTrace_le w t s k k' pres evs : EvTrace w t s k k' pres evs -> (k <= k')%N.
Proof. induction 1; lia. Qed.
Lemma EvTrace_weaken w t s k0 k k' pres evs : (k0 <= k)%N -> EvTrace w t s k k' pres evs -> EvTrace w t s k0 k' pres evs.
Proof. intros H HE. inversion HE; subst; econstructor; eauto; lia. Qed.
Lemma EvTrace_app w t s k k1 k' p1 e1 p2 e2 :
  EvTrace w t s k k1 p1 e1 -> EvTrace w t s k1 k' p2 e2 -> EvTrace w t s k k' (p1 ++ p2) (e1 ++ e2).
Proof.
  induction 1 as [k k1 Hk|k k1 kk p pres evs Hk HE IH]; intros H2; cbn [app].
  - eapply EvTrace_weaken; eauto.
  - econstructor; eauto.
Qed.
Lemma EvTrace_frame w w' t s k k' pres evs : w_in w' = w_in w -> w_num w' = w_num w -> w_opt w' = w_opt w ->
  EvTrace w t s k k' pres evs -> EvTrace w' t s k k' pres evs.
Proof.
  intros H1 H2 H3. induction 1; [constructor; auto|].
  assert (E : mk_ev w (add64 t k1) (add64 s k1) p = mk_ev w' (add64 t k1) (add64 s k1) p).
  { unfold mk_ev. rewrite H1, H2, H3. reflexivity. }
  rewrite E. constructor; auto.
Qed.

Definition cap_of (w : writer) : N := out_cap (w_opt w).
Lemma cap_pos w : (0 < cap_of w)%N.
Proof. unfold cap_of, out_cap. apply pow2_pos. Qed.

(** Result of running actions [l] on a Writer [w]. *)
Definition w_ran (w w' : writer) (l : list act) (ok : bool) : Prop :=
  w_frame w w' /\
  (if ok then
     (exists p, bytes_ok p /\ o_ext (w_out w) (w_out w') p) /\
     counters_ok (w_out w') /\ out_ok env (w_out w') /\
     obits (w_out w') = obits (w_out w) ++ acts_bits (length (obits (w_out w))) l
   else o_failed env (w_out w) (w_out w') /\ obLen (w_out w') = 0 /\ obBlock (w_out w') = 0%N) /\
  exists evs pres rest, w_events w' = w_events w ++ evs /\ acts_evs l = pres ++ rest /\ (ok = true -> rest = []) /\
    forall t s k, outTotal (w_out w) = add64 t k -> outStream (w_out w) = add64 s k ->
      exists k', EvTrace w t s k k' pres evs /\
        (ok = true -> outTotal (w_out w') = add64 t k' /\ outStream (w_out w') = add64 s k' /\
                      (N.of_nat (length (sink (w_out w'))) + k = N.of_nat (length (sink (w_out w))) + k')%N).

Lemma w_ran_nil w : out_ok env (w_out w) -> counters_ok (w_out w) -> w_ran w w [] true.
Proof.
  intros Ho Hc. split; [apply w_frame_refl|]. split.
  - split; [exists []; split; [constructor|apply o_ext_refl; auto; apply Ho]|].
    split; auto. split; auto. cbn. now rewrite app_nil_r.
  - exists [], [], []. rewrite app_nil_r. repeat split; auto.
    intros t s k H1 H2. exists k. split; [constructor; lia|]. intros _. repeat split; auto.
Qed.

Lemma w_ran_cons w w1 w2 a l ok : (outCRC (w_out w) < two32)%N -> w_ran w w1 [a] true -> w_ran w1 w2 l ok -> w_ran w w2 (a :: l) ok.
Proof.
  intros Hcrc [F1 [S1 [e1 [p1 [r1 [E1 [P1 [R1 T1]]]]]]]] [F2 [S2 [e2 [p2 [r2 [E2 [P2 [R2 T2]]]]]]]].
  specialize (R1 eq_refl). subst r1. rewrite app_nil_r in P1.
  split; [eapply w_frame_trans; eauto|]. split.
  - destruct S1 as [[q1 [Q1 X1]] [C1 [O1 B1]]]. destruct ok.
    + destruct S2 as [[q2 [Q2 X2]] [C2 [O2 B2]]]. split; [|split; [auto|split; auto]].
      * exists (q1 ++ q2). split; [apply bytes_ok_app; auto|].
        eapply o_ext_trans; eauto.
      * rewrite B2, B1. cbn [acts_bits]. rewrite <- app_assoc. f_equal. f_equal; [now rewrite app_nil_r|].
        f_equal. rewrite app_length. f_equal. cbn [acts_bits]. now rewrite app_nil_r.
    + destruct S2 as [S2 S3]. split; auto. eapply o_failed_trans; eauto.
  - exists (e1 ++ e2), (p1 ++ p2), r2. rewrite E2, E1, app_assoc. split; auto.
    change (a :: l) with ([a] ++ l). rewrite acts_evs_app, P1, P2, app_assoc. split; auto. split; auto.
    intros t s k H1 H2. destruct (T1 t s k H1 H2) as [k1 [T1a T1b]].
    destruct (T1b eq_refl) as [U1 [U2 U3]].
    destruct (T2 t s k1 U1 U2) as [k2 [T2a T2b]]. exists k2. split.
    + eapply EvTrace_app; eauto. destruct F1 as [f1 [f2 [f3 [f4 [f5 f6]]]]].
      eapply EvTrace_frame; [| | |exact T2a]; auto.
    + intros Hok. destruct (T2b Hok) as [V1 [V2 V3]]. repeat split; auto. lia.
Qed.

Lemma w_out_set w o : w_out (set_out w o) = o.
Proof. destruct w; reflexivity. Qed.
Lemma w_frame_set w o : w_frame w (set_out w o).
Proof. destruct w; repeat split. Qed.
Lemma w_events_set w o : w_events (set_out w o) = w_events w.
Proof. destruct w; reflexivity. Qed.

(** one write-like action given its effect on the output side *)
Lemma w_ran_out w a f o (ok : bool) :
  f (w_out w) = Ok (o, ok) -> act_evs a = [] -> out_ok env (w_out w) -> counters_ok (w_out w) ->
  (if ok then (exists p, bytes_ok p /\ o_ext (w_out w) o p) /\ counters_ok o /\ out_ok env o /\
              obits o = obits (w_out w) ++ act_bits (length (obits (w_out w))) a
   else o_failed env (w_out w) o /\ obLen o = 0 /\ obBlock o = 0%N) ->
  on_out f w = Ok (set_out w o, ok) /\ w_ran w (set_out w o) [a] ok.
Proof.
  intros Hf Ha Ho Hc H. unfold on_out. rewrite Hf. cbn [rbind]. split; auto.
  split; [apply w_frame_set|]. rewrite w_out_set, w_events_set. split.
  - destruct ok; auto. cbn [acts_bits]. rewrite app_nil_r. auto.
  - exists [], [], []. rewrite app_nil_r. unfold acts_evs; cbn [flat_map app]. rewrite Ha. repeat split; auto.
    intros t s k H1 H2. destruct ok.
    + destruct H as [[p [Hp X]] [C [O B]]]. exists (k + lenN p)%N. split; [constructor; lia|]. intros _.
      rewrite (oe_total X), (oe_stream X), (oe_sink X), H1, H2, !add64_assoc, app_length. unfold lenN. repeat split; auto. lia.
    + exists k. split; [constructor; lia|discriminate].
Qed.

Lemma do_act_writer w a : out_ok env (w_out w) -> counters_ok (w_out w) -> act_ok a ->
  exists w' ok, do_act (bw_writer env) a w = Ok (w', ok) /\ w_ran w w' [a] ok.
Proof.
  intros Ho Hc Ha. pose proof (bpb_cases Hbpb) as Hb.
  destruct a as [n x| |x|p|e]; cbn [do_act bw_writer bw_bitsWrite bw_bitsFlush bw_writeU16le bw_bufferWrite bw_event].
  - destruct (@o_bitsWrite_ok env Hbpb (cap_of w) (w_out w) n x (cap_pos w) Ho Hc) as [o [ok [E R]]].
    { cbn in Ha. lia. }
    exists (set_out w o), ok. eapply w_ran_out; eauto.
  - destruct (@o_bitsFlush_ok env Hbpb (cap_of w) (w_out w) (cap_pos w) Ho Hc) as [o [ok [E [L [B R]]]]].
    exists (set_out w o), ok. eapply w_ran_out; eauto.
    destruct ok; auto. destruct R as [X [C [O Bi]]]. split; [eexists; split; [apply le_bytes_ok|exact X]|]. auto.
  - destruct (@o_bufferWrite_ok env Hbpb (cap_of w) (w_out w) (le16 x) (cap_pos w) Ho Hc (le16_bytes x)) as [o [ok [E [L [B R]]]]].
    exists (set_out w o), ok.
    assert (D : do_act (bw_writer env) (AU16 x) w = on_out (fun o => o_bufferWrite env (cap_of w) o (le16 x)) w) by reflexivity.
    cbn [do_act bw_writer bw_writeU16le] in D. rewrite D. eapply w_ran_out; eauto.
    destruct ok; auto. destruct R as [X [C [O Bi]]].
    split; [eexists; split; [|exact X]; apply bytes_ok_app; split; [apply le_bytes_ok|apply le16_bytes]|]. auto.
  - destruct (@o_bufferWrite_ok env Hbpb (cap_of w) (w_out w) p (cap_pos w) Ho Hc Ha) as [o [ok [E [L [B R]]]]].
    exists (set_out w o), ok. eapply (@w_ran_out w (ABuf p)); eauto.
    destruct ok; auto. destruct R as [X [C [O Bi]]].
    split; [eexists; split; [|exact X]; apply bytes_ok_app; split; [apply le_bytes_ok|auto]|]. auto.
  - exists (sendEvent w e), true. split; auto. unfold sendEvent.
    split; [destruct w; repeat split|]. assert (E : w_out (add_event w (mk_ev w (outTotal (w_out w)) (outStream (w_out w)) e)) = w_out w) by (destruct w; reflexivity).
    unfold mk_ev in E. rewrite E. split.
    + split; [exists []; split; [constructor|apply o_ext_refl; auto; apply Ho]|]. split; auto. split; auto. cbn. now rewrite app_nil_r.
    + eexists _, [e], []. split; [destruct w; reflexivity|]. split; [reflexivity|]. split; auto.
      intros t s k H1 H2. exists k. split.
      * rewrite H1, H2. apply (et_cons (w := w)); [lia|]. constructor; lia.
      * intros _. repeat split; auto.
Qed.

Lemma run_writer l : acts_ok l -> forall w, out_ok env (w_out w) -> counters_ok (w_out w) ->
  exists w' ok, run (bw_writer env) l w = Ok (w', ok) /\ w_ran w w' l ok.
Proof.
  induction 1 as [|a l Ha Hl IH]; intros w Ho Hc.
  - exists w, true. split; [reflexivity|]. apply w_ran_nil; auto.
  - destruct (do_act_writer Ho Hc Ha) as [w1 [ok1 [E1 R1]]]. rewrite run_cons, E1. cbn [rbind].
    assert (Hcrc : (outCRC (w_out w) < two32)%N) by apply Ho.
    destruct ok1.
    + pose proof R1 as [_ [[_ [C1 [O1 _]]] _]]. destruct (IH w1 O1 C1) as [w2 [ok2 [E2 R2]]].
      exists w2, ok2. split; auto. eapply w_ran_cons; eauto.
    + exists w1, false. split; auto. destruct R1 as [F [S1 [evs [pres [rest [A [B [C D]]]]]]]].
      split; auto. split; auto. exists evs, pres, (rest ++ acts_evs l).
      change (a :: l) with ([a] ++ l). rewrite acts_evs_app, B, app_assoc. repeat split; auto. discriminate.
Qed.
End Env.
