(** The block writers produce blocks of the RFC 1951 grammar. *)
From Verif Require Import Base SpecHuffman SpecDeflate MChecksum PChecksum MToken MCommon MWriter MReader SpecLib
  PToken PHuffman PTree PBits PActs SpecBlocks PAt.

(** ** Tokens *)
Definition tok_of (t : ltoken) : token :=
  match t with TLit c => makeLiteralToken c | TCopy l d => Token l d end.
Definition ltok_ok (t : ltoken) : Prop :=
  match t with TLit c => (c < 256)%N | TCopy l d => (3 <= l <= 258)%N /\ (1 <= d <= 32768)%N end.
Definition toks (ts : list ltoken) : list token := map tok_of ts ++ [makeStopToken].

Definition opt_bits (n : nat) (x : N) : list act := if Nat.eqb n 0 then [] else [ABits n x].
Definition hc_act (sizes : list nat) (s : N) : act := ABits (fst (enc_code sizes s)) (snd (enc_code sizes s)).

Definition tok_acts (hLL hD : list nat) (t : token) : list act :=
  match symbolLL t, symbolD t with
  | Ok (Some sl, nl, xl), Ok (sd, nd, xd) =>
      hc_act hLL sl :: opt_bits nl xl ++
      match sd with Some sd => hc_act hD sd :: opt_bits nd xd | None => [] end
  | _, _ => []
  end.

Definition x_acts (hX : list nat) (t : token) : list act :=
  match symbolX t with
  | (Some sx, n, x) => hc_act hX sx :: opt_bits n x
  | _ => []
  end.

Lemma andthen_true {S} (x : res (S * bool)) : (let? s := x in Ok (s, true)) = x.
Proof. destruct x as [[s []]| |]; reflexivity. Qed.

Lemma run_opt_bits {S} (bw : bitwriter S) n x s :
  (if Nat.eqb n 0 then Ok (s, true) else bw_bitsWrite bw s n x) = run bw (opt_bits n x) s.
Proof. unfold opt_bits. destruct (Nat.eqb n 0); auto. unfold run. cbn [for_each do_act]. rewrite andthen_true. reflexivity. Qed.

Definition tok_valid (t : token) : Prop := t = makeStopToken \/ exists lt, ltok_ok lt /\ t = tok_of lt.

Lemma tok_symbols t : tok_valid t -> exists sl nl xl sd nd xd,
  symbolLL t = Ok (Some sl, nl, xl) /\ symbolD t = Ok (sd, nd, xd) /\ nl <= 5 /\ nd <= 13 /\
  (sl < 286)%N /\ match sd with Some d => (d < 30)%N | None => True end.
Proof.
  intros [->|[[c|l d] [Hok ->]]].
  - exists 256%N, 0, 0%N, None, 0, 0%N. repeat split; auto; lia.
  - cbn [tok_of ltok_ok] in *. exists c, 0, 0%N, None, 0, 0%N. rewrite symbolLL_lit by auto.
    repeat split; auto; lia.
  - cbn [tok_of ltok_ok] in *. destruct Hok as [Hl Hd].
    destruct (@symbolLL_copy l d Hl) as [s [b [n [e [E1 [E2 [E3 E4]]]]]]]; [lia|].
    destruct (@symbolD_copy l d Hd) as [s' [b' [n' [e' [E1' [E2' [E3' E4']]]]]]].
    apply len_entry_range in E2. apply dist_entry_range in E2'.
    exists s, n, e, (Some s'), n', e'. repeat split; auto; lia.
Qed.

Lemma encodeLLD_run {S} (bw : bitwriter S) hLL hD t s : tok_valid t ->
  encodeLLD bw hLL hD t s = run bw (tok_acts hLL hD t) s.
Proof.
  intros Ht. destruct (tok_symbols Ht) as [sl [nl [xl [sd [nd [xd [E1 [E2 _]]]]]]]].
  unfold encodeLLD, tok_acts. rewrite E1, E2. cbn [rbind].
  rewrite run_cons. apply andthen_ext. intros s1. rewrite run_app.
  rewrite run_opt_bits. apply andthen_ext. intros s2.
  destruct sd as [sd|]; [|reflexivity].
  rewrite run_cons. apply andthen_ext. intros s3. rewrite run_opt_bits. apply andthen_true.
Qed.

Lemma encodeX_run {S} (bw : bitwriter S) hX t s : encodeX bw hX t s = run bw (x_acts hX t) s.
Proof.
  unfold encodeX, x_acts. destruct (symbolX t) as [[[sx|] n] x]; [|reflexivity].
  rewrite run_cons. apply andthen_ext. intros s1. rewrite run_opt_bits. apply andthen_true.
Qed.

(** ** Frequencies *)
Lemma length_bump l i : length (bump l i) = length l.
Proof. revert i; induction l as [|x l IH]; intros [|i]; cbn [bump length]; auto. Qed.
Lemma nth_bump l i j : nth j (bump l i) 0%N = (nth j l 0 + (if Nat.eqb i j && (i <? length l)%nat then 1 else 0))%N.
Proof.
  revert i j; induction l as [|x l IH]; intros i j.
  - cbn [bump]. replace (i <? length (@nil N)) with false by (symmetry; apply Nat.ltb_ge; simpl; lia).
    rewrite andb_false_r. lia.
  - destruct i as [|i], j as [|j]; cbn [bump nth].
    + reflexivity.
    + change (Nat.eqb 0 (Datatypes.S j)) with false. cbn [andb]. lia.
    + change (Nat.eqb (Datatypes.S i) 0) with false. cbn [andb]. lia.
    + rewrite IH. cbn [length]. change (Nat.eqb (Datatypes.S i) (Datatypes.S j)) with (Nat.eqb i j).
      change (Datatypes.S i <? Datatypes.S (length l)) with (i <? length l). reflexivity.
Qed.

Definition llsym (t : token) : option N := match symbolLL t with Ok (s, _, _) => s | _ => None end.
Definition dsym (t : token) : option N := match symbolD t with Ok (s, _, _) => s | _ => None end.
Definition has_sym (f : token -> option N) (s : N) (t : token) : bool :=
  match f t with Some x => (x =? s)%N | None => false end.
Definition count_sym (f : token -> option N) (l : list token) (s : N) : N := lenN (filter (has_sym f s) l).

Lemma lenN_cons {A} (x : A) l : lenN (x :: l) = (lenN l + 1)%N.
Proof. unfold lenN. cbn [length]. lia. Qed.

Lemma bumpsym_ok l s : (forall x, s = Some x -> N.to_nat x < length l) ->
  exists l', bumpsym l s = Ok l' /\ length l' = length l /\
    forall j, (j < lenN l)%N -> nth (N.to_nat j) l' 0%N = (nth (N.to_nat j) l 0 + match s with Some x => if (x =? j)%N then 1 else 0 | None => 0 end)%N.
Proof.
  intros H. destruct s as [x|]; cbn [bumpsym].
  - specialize (H x eq_refl). destruct (Nat.ltb_spec (N.to_nat x) (length l)); [|lia].
    exists (bump l (N.to_nat x)). split; auto. split; [apply length_bump|].
    intros j Hj. rewrite nth_bump. f_equal.
    destruct (N.eqb_spec x j) as [->|Hne].
    + rewrite Nat.eqb_refl. replace (N.to_nat j <? length l) with true by (symmetry; apply Nat.ltb_lt; auto). reflexivity.
    + destruct (Nat.eqb_spec (N.to_nat x) (N.to_nat j)); [lia|reflexivity].
  - exists l. split; auto. split; auto. intros. lia.
Qed.

Lemma study_lld_ok ts : Forall tok_valid ts -> forall fLL fD, length fLL = 288 -> length fD = 32 ->
  exists fLL' fD', study_lld ts fLL fD = Ok (fLL', fD') /\ length fLL' = 288 /\ length fD' = 32 /\
    (forall j, (j < 288)%N -> nth (N.to_nat j) fLL' 0%N = (nth (N.to_nat j) fLL 0 + count_sym llsym ts j)%N) /\
    (forall j, (j < 32)%N -> nth (N.to_nat j) fD' 0%N = (nth (N.to_nat j) fD 0 + count_sym dsym ts j)%N).
Proof.
  induction 1 as [|t ts Ht Hts IH]; intros fLL fD HLL HD.
  - exists fLL, fD. cbn [study_lld]. repeat split; auto; intros; unfold count_sym; cbn; lia.
  - destruct (tok_symbols Ht) as [sl [nl [xl [sd [nd [xd [E1 [E2 [E3 [E4 [E5 E6]]]]]]]]]]].
    cbn [study_lld]. rewrite E1. cbn [rbind].
    destruct (@bumpsym_ok fLL (Some sl)) as [f1 [B1 [L1 N1]]].
    { intros x Hx. inversion Hx; subst. rewrite HLL. lia. }
    rewrite B1. cbn [rbind]. rewrite E2. cbn [rbind].
    destruct (@bumpsym_ok fD sd) as [f2 [B2 [L2 N2]]].
    { intros x Hx. subst sd. rewrite HD. lia. }
    rewrite B2. cbn [rbind].
    destruct (IH f1 f2) as [g1 [g2 [G1 [G2 [G3 [G4 G5]]]]]]; try congruence.
    exists g1, g2. split; auto. split; auto. split; auto. split.
    + intros j Hj. rewrite G4 by auto. rewrite N1 by (unfold lenN; lia). unfold count_sym. cbn [filter].
      unfold has_sym at 2, llsym at 2. rewrite E1. destruct (N.eqb_spec sl j); rewrite ?lenN_cons; lia.
    + intros j Hj. rewrite G5 by auto. rewrite N2 by (unfold lenN; lia). unfold count_sym. cbn [filter].
      unfold has_sym at 2, dsym at 2. rewrite E2. destruct sd as [sd|]; [destruct (N.eqb_spec sd j)|]; rewrite ?lenN_cons; lia.
Qed.

Lemma nth_repeat0 n j : nth j (repeat 0%N n) 0%N = 0%N.
Proof. revert j; induction n; intros [|j]; simpl; auto. Qed.

Lemma studyLLD_ok ts : Forall tok_valid ts ->
  exists fLL fD, studyFrequenciesLLD ts = Ok (fLL, fD) /\ length fLL = 288 /\ length fD = 32 /\
    (forall j, (j < 288)%N -> nth (N.to_nat j) fLL 0%N = count_sym llsym ts j) /\
    (forall j, (j < 32)%N -> nth (N.to_nat j) fD 0%N = count_sym dsym ts j).
Proof.
  intros H. destruct (@study_lld_ok ts H (repeat 0%N 288) (repeat 0%N 32)) as [f1 [f2 [A [B [C [D E]]]]]];
    try apply repeat_length.
  exists f1, f2. split; [exact A|]. split; auto. split; auto. split.
  - intros j Hj. rewrite D, nth_repeat0 by auto. lia.
  - intros j Hj. rewrite E, nth_repeat0 by auto. lia.
Qed.

Lemma count_pos f ts s t : In t ts -> f t = Some s -> (0 < count_sym f ts s)%N.
Proof.
  intros Hin Hf. unfold count_sym.
  assert (A : In t (filter (has_sym f s) ts)).
  { apply filter_In. split; auto. unfold has_sym. rewrite Hf. apply N.eqb_refl. }
  destruct (filter (has_sym f s) ts); [destruct A|]. rewrite lenN_cons. lia.
Qed.
Lemma count_zero f ts s : (forall t, In t ts -> f t <> Some s) -> count_sym f ts s = 0%N.
Proof.
  intros H. unfold count_sym.
  destruct (filter (has_sym f s) ts) as [|t l] eqn:E; auto. exfalso.
  assert (A : In t (filter (has_sym f s) ts)) by (rewrite E; left; auto).
  apply filter_In in A. destruct A as [A1 A2]. unfold has_sym in A2.
  destruct (f t) as [x|] eqn:Ft; [|discriminate]. apply (H t A1). rewrite Ft. f_equal. lia.
Qed.

(** x tokens *)
Definition xsym (t : token) : option N := fst (fst (symbolX t)).
Lemma study_x_ok ts : (forall t x, In t ts -> xsym t = Some x -> (x < 19)%N) -> forall fX, length fX = 19 ->
  exists fX', study_x ts fX = Ok fX' /\ length fX' = 19 /\
    (forall j, (j < 19)%N -> nth (N.to_nat j) fX' 0%N = (nth (N.to_nat j) fX 0 + count_sym xsym ts j)%N).
Proof.
  induction ts as [|t ts IH]; intros H fX HX.
  - exists fX. cbn [study_x]. repeat split; auto. intros; unfold count_sym; cbn; lia.
  - cbn [study_x]. destruct (symbolX t) as [[sx n] x] eqn:E.
    destruct (@bumpsym_ok fX sx) as [f1 [B1 [L1 N1]]].
    { intros y Hy. subst sx. rewrite HX. assert (y < 19)%N; [|lia]. apply (H t y); [left; auto|]. unfold xsym. rewrite E. auto. }
    rewrite B1. cbn [rbind]. destruct (IH) with (fX := f1) as [g [G1 [G2 G3]]]; try congruence.
    { intros t' y Ht' Hy. eapply H; eauto. right; auto. }
    exists g. split; auto. split; auto. intros j Hj. rewrite G3 by auto. rewrite N1 by (unfold lenN; lia).
    unfold count_sym. cbn [filter]. unfold has_sym at 2, xsym at 2. rewrite E. cbn [fst].
    destruct sx as [sx|]; [destruct (N.eqb_spec sx j)|]; rewrite ?lenN_cons; lia.
Qed.

(** ** Bits of tokens *)
Lemma hc_bits pos sizes s : act_bits pos (hc_act sizes s) = codeword sizes s.
Proof.
  unfold hc_act, enc_code. cbn [act_bits fst snd].
  rewrite <- (length_codeword sizes s) at 1. apply bits_of_N_of_bits.
Qed.
Lemma opt_bits_bits pos n x : acts_bits pos (opt_bits n x) = bits_of_N n x.
Proof. unfold opt_bits. destruct (Nat.eqb_spec n 0) as [->|]; auto. cbn. now rewrite app_nil_r. Qed.

Definition tok_codes (ll d : list nat) (t : token) : Prop :=
  (forall s, llsym t = Some s -> 0 < code_size ll s) /\ (forall s, dsym t = Some s -> 0 < code_size d s).

Lemma tok_acts_bits ll d lt pos : ltok_ok lt -> tok_codes ll d (tok_of lt) ->
  TokenEnc ll d lt (acts_bits pos (tok_acts ll d (tok_of lt))).
Proof.
  intros Hok [C1 C2]. destruct lt as [c|l dd]; cbn [tok_of ltok_ok] in *; unfold tok_acts.
  - unfold llsym in C1. rewrite symbolLL_lit in * by auto. change (symbolD (makeLiteralToken c)) with (@Ok (option N * nat * N) (None, 0, 0%N)). cbn [opt_bits Nat.eqb app acts_bits].
    rewrite app_nil_r, hc_bits. constructor; auto. split; auto.
  - destruct Hok as [Hl Hd].
    destruct (@symbolLL_copy l dd Hl) as [s [b [n [e [E1 [E2 [E3 E4]]]]]]]; [lia|].
    destruct (@symbolD_copy l dd Hd) as [s' [b' [n' [e' [E1' [E2' [E3' E4']]]]]]].
    unfold llsym in C1. unfold dsym in C2. rewrite E1 in *. rewrite E1' in *. subst l dd.
    cbn [acts_bits]. rewrite hc_bits, acts_bits_app, opt_bits_bits. cbn [acts_bits]. rewrite hc_bits, opt_bits_bits.
    apply enc_copy with (s := s) (t := s'); auto; split; auto.
Qed.

Lemma toks_bits ll d lts : Forall ltok_ok lts -> Forall (tok_codes ll d) (toks lts) -> forall pos,
  TokensEnc ll d lts (acts_bits pos (flat_map (tok_acts ll d) (toks lts))).
Proof.
  unfold toks. induction 1 as [|lt lts Hok Hl IH]; intros HC pos; cbn [map app flat_map] in *.
  - inversion HC as [|? ? [C1 _] _]; subst. rewrite app_nil_r. unfold tok_acts.
    rewrite symbolLL_stop. change (symbolD makeStopToken) with (@Ok (option N * nat * N) (None, 0, 0%N)). cbn [opt_bits Nat.eqb app acts_bits].
    rewrite hc_bits, app_nil_r. constructor. split; auto.
  - inversion HC as [|? ? HC1 HC2]; subst. rewrite acts_bits_app. constructor; auto.
    apply tok_acts_bits; auto.
Qed.

Lemma acts_ok_app a b : acts_ok (a ++ b) <-> acts_ok a /\ acts_ok b.
Proof. apply Forall_app. Qed.
Lemma acts_ok_flat {A} (f : A -> list act) l : (forall x, In x l -> acts_ok (f x)) -> acts_ok (flat_map f l).
Proof.
  intros H. apply Forall_flat_map. apply Forall_forall. auto.
Qed.
Lemma hc_ok sizes s : sizes_le 15 sizes -> act_ok (hc_act sizes s).
Proof.
  intros H. unfold hc_act, enc_code; cbn [act_ok fst]. pose proof (@code_size_le 15 sizes s H). lia.
Qed.
Lemma opt_bits_ok n x : n <= 32 -> acts_ok (opt_bits n x).
Proof. intros H. unfold opt_bits. destruct (Nat.eqb n 0); [constructor|]. constructor; [exact H|constructor]. Qed.
Lemma tok_acts_ok ll d t : sizes_le 15 ll -> sizes_le 15 d -> tok_valid t -> acts_ok (tok_acts ll d t).
Proof.
  intros H1 H2 Ht. destruct (tok_symbols Ht) as [sl [nl [xl [sd [nd [xd [E1 [E2 [E3 [E4 _]]]]]]]]]].
  unfold tok_acts. rewrite E1, E2. constructor; [apply hc_ok; auto|]. apply acts_ok_app. split; [apply opt_bits_ok; lia|].
  destruct sd; [|constructor]. constructor; [apply hc_ok; auto|apply opt_bits_ok; lia].
Qed.

Lemma no_evs_tok ll d t : acts_evs (tok_acts ll d t) = [].
Proof.
  unfold tok_acts, opt_bits, hc_act. destruct (symbolLL t) as [[[[sl|] nl] xl]| |]; auto.
  destruct (symbolD t) as [[[[sd|] nd] xd]| |]; auto; destruct (Nat.eqb nl 0); try destruct (Nat.eqb nd 0); reflexivity.
Qed.
Lemma no_evs_x hX t : acts_evs (x_acts hX t) = [].
Proof.
  unfold x_acts, opt_bits, hc_act. destruct (symbolX t) as [[[sl|] nl] xl]; auto. destruct (Nat.eqb nl 0); reflexivity.
Qed.
Lemma no_evs_flat {A} (f : A -> list act) l : (forall x, acts_evs (f x) = []) -> acts_evs (flat_map f l) = [].
Proof.
  intros H. induction l as [|x l IH]; auto. cbn [flat_map]. rewrite acts_evs_app, H, IH. reflexivity.
Qed.

Lemma toks_valid lts : Forall ltok_ok lts -> Forall tok_valid (toks lts).
Proof.
  intros H. unfold toks. apply Forall_app. split.
  - induction H; cbn [map]; constructor; auto. right. eauto.
  - repeat constructor.
Qed.
Lemma lastIsStop_toks lts : lastIsStop (toks lts) = true.
Proof. unfold lastIsStop, toks. rewrite rev_app_distr. reflexivity. Qed.

(** ** Stored blocks *)
Definition stored_acts (data : list N) (fin : bool) : list act :=
  [AEv (ev_block BlockBeginEvent StoredBlock fin); ABits 3 (if fin then 1 else 0)%N; AFlush;
   AU16 (lenN data mod two16)%N; AU16 (65535 - lenN data mod two16)%N; ABuf data;
   AEv (ev_block BlockEndEvent StoredBlock fin)].

Lemma writeStored_run {S} (bw : bitwriter S) s data fin : (lenN data <= 65535)%N ->
  writeStoredBlock bw s data fin = run bw (stored_acts data fin) s.
Proof.
  intros H. unfold writeStoredBlock, assertb. destruct (N.leb_spec (lenN data) 65535); [|lia]. reflexivity.
Qed.
Lemma writeStored_panic {S} (bw : bitwriter S) s data fin : (65535 < lenN data)%N ->
  writeStoredBlock bw s data fin = Panic PAssert.
Proof.
  intros H. unfold writeStoredBlock, assertb. destruct (N.leb_spec (lenN data) 65535); [lia|]. reflexivity.
Qed.

Lemma pad8_le n : pad8 n < 8.
Proof. apply pad8_lt. Qed.
Lemma pad8_0 n : n mod 8 = 0 -> pad8 n = 0.
Proof. unfold pad8. intros ->. reflexivity. Qed.

Lemma stored_block acc lk pos hist data fin : bytes_ok data -> (lenN data <= 65535)%N ->
  Block acc lk pos hist fin (acts_bits pos (stored_acts data fin)) (rev data ++ hist).
Proof.
  intros Hd Hl. unfold stored_acts. cbn [acts_bits act_bits app length]. rewrite Nat.add_0_r.
  rewrite length_bits_of_N, app_nil_r, N.mod_small by (unfold two16; lia).
  set (pd := repeat false (pad8 (pos + 3))).
  assert (L : length pd = pad8 (pos + 3)) by apply repeat_length.
  assert (A0 : (pos + 3 + length pd) mod 8 = 0) by (rewrite L; apply pad8_aligned).
  rewrite (pad8_0 A0). cbn [repeat app]. rewrite !length_bits_of_bytes. cbn [length le16].
  assert (A1 : (pos + 3 + length pd + 8 * 2) mod 8 = 0).
  { rewrite (Nat.mul_comm 8 2), Nat.mod_add; auto. }
  rewrite (pad8_0 A1). cbn [repeat app]. rewrite length_bits_of_bytes. cbn [length le16].
  assert (A2 : (pos + 3 + length pd + 8 * 2 + 8 * 2) mod 8 = 0).
  { rewrite (Nat.mul_comm 8 2), Nat.mod_add; auto. }
  rewrite (pad8_0 A2). cbn [repeat app].
  change ([lenN data mod 256; (lenN data / 256) mod 256])%N with (le16 (lenN data)).
  rewrite !bits_le16.
  assert (E : bits_of_N 3 (if fin then 1 else 0)%N = [fin; false; false]) by (destruct fin; reflexivity).
  rewrite E. apply block_stored; auto. rewrite L. apply pad8_lt.
Qed.

Lemma stored_blockS acc pos data fin : bytes_ok data -> (lenN data <= 65535)%N ->
  BlockS acc pos fin (acts_bits pos (stored_acts data fin)) [ev_block BlockBeginEvent StoredBlock fin; ev_block BlockEndEvent StoredBlock fin].
Proof.
  intros Hd Hl. unfold stored_acts. cbn [acts_bits act_bits app length]. rewrite Nat.add_0_r.
  rewrite length_bits_of_N, app_nil_r, N.mod_small by (unfold two16; lia).
  set (pd := repeat false (pad8 (pos + 3))).
  assert (L : length pd = pad8 (pos + 3)) by apply repeat_length.
  assert (A0 : (pos + 3 + length pd) mod 8 = 0) by (rewrite L; apply pad8_aligned).
  rewrite (pad8_0 A0). cbn [repeat app]. rewrite !length_bits_of_bytes. cbn [length le16].
  assert (A1 : (pos + 3 + length pd + 8 * 2) mod 8 = 0).
  { rewrite (Nat.mul_comm 8 2), Nat.mod_add; auto. }
  rewrite (pad8_0 A1). cbn [repeat app]. rewrite length_bits_of_bytes. cbn [length le16].
  assert (A2 : (pos + 3 + length pd + 8 * 2 + 8 * 2) mod 8 = 0).
  { rewrite (Nat.mul_comm 8 2), Nat.mod_add; auto. }
  rewrite (pad8_0 A2). cbn [repeat app].
  change ([lenN data mod 256; (lenN data / 256) mod 256])%N with (le16 (lenN data)).
  rewrite !bits_le16.
  assert (E : bits_of_N 3 (if fin then 1 else 0)%N = [fin; false; false]) by (destruct fin; reflexivity).
  rewrite E. apply blockS_stored; auto. rewrite L. apply pad8_lt.
Qed.

Lemma stored_ok data fin : bytes_ok data -> acts_ok (stored_acts data fin).
Proof. intros H. unfold stored_acts, acts_ok. repeat constructor; cbn [act_ok]; auto; try lia. Qed.

(** ** Static blocks *)
Definition static_acts (tokens : list token) (fin : bool) : list act :=
  [AEv (ev_block BlockBeginEvent StaticBlock fin); ABits 3 (if fin then 3 else 2)%N;
   AEv (ev_trees StaticBlock fin (Trees 0 0 0 [] fixedSizesLL fixedSizesD))]
  ++ flat_map (tok_acts fixedSizesLL fixedSizesD) tokens
  ++ [AEv (ev_block BlockEndEvent StaticBlock fin)].

Lemma writeStatic_run {S} (bw : bitwriter S) s lts fin : Forall ltok_ok lts ->
  writeStaticBlock bw s (toks lts) fin = run bw (static_acts (toks lts) fin) s.
Proof.
  intros H. pose proof (toks_valid H) as HV. rewrite Forall_forall in HV.
  unfold writeStaticBlock, assertb. rewrite lastIsStop_toks.
  unfold static_acts. cbn [app]. rewrite run_cons. cbn [do_act rbind]. rewrite run_cons. cbn [do_act].
  apply andthen_ext. intros s1. rewrite run_cons. cbn [do_act rbind]. rewrite run_app.
  rewrite (@for_each_run S token bw _ (tok_acts fixedSizesLL fixedSizesD)).
  - apply andthen_ext. intros s2. reflexivity.
  - intros t s2 Ht. apply encodeLLD_run. auto.
Qed.

Lemma fixed_ll_pos s : (s < 288)%N -> 0 < code_size fixed_ll s.
Proof.
  intros H. unfold code_size.
  assert (A : forallb (fun b => 0 <? b) fixed_ll = true) by (vm_compute; reflexivity).
  rewrite forallb_forall in A. apply Nat.ltb_lt. apply A. apply nth_In.
  change (length fixed_ll) with 288. lia.
Qed.
Lemma fixed_d_pos s : (s < 32)%N -> 0 < code_size fixed_d s.
Proof.
  intros H. unfold code_size.
  assert (A : forallb (fun b => 0 <? b) fixed_d = true) by (vm_compute; reflexivity).
  rewrite forallb_forall in A. apply Nat.ltb_lt. apply A. apply nth_In.
  change (length fixed_d) with 32. lia.
Qed.

Lemma fixed_codes t : tok_valid t -> tok_codes fixed_ll fixed_d t.
Proof.
  intros Ht. destruct (tok_symbols Ht) as [sl [nl [xl [sd [nd [xd [E1 [E2 [E3 [E4 [E5 E6]]]]]]]]]]].
  split; intros s Hs; unfold llsym, dsym in Hs; rewrite ?E1, ?E2 in Hs; inversion Hs; subst.
  - apply fixed_ll_pos. lia.
  - apply fixed_d_pos. lia.
Qed.

Lemma static_block acc lk pos hist hist' lts fin : Forall ltok_ok lts -> expand lk hist lts = Some hist' ->
  Block acc lk pos hist fin (acts_bits pos (static_acts (toks lts) fin)) hist'.
Proof.
  intros H HE. unfold static_acts. cbn [app acts_bits act_bits length]. rewrite acts_bits_app. cbn [acts_bits act_bits]. rewrite !app_nil_r.
  assert (E : bits_of_N 3 (if fin then 3 else 2)%N = [fin; true; false]) by (destruct fin; reflexivity).
  rewrite E, fixedLL_eq, fixedD_eq. eapply block_static; eauto. apply toks_bits; auto.
  apply Forall_impl with (P := tok_valid); [apply fixed_codes|]. apply toks_valid; auto.
Qed.

Lemma static_blockS acc pos lts fin : Forall ltok_ok lts ->
  BlockS acc pos fin (acts_bits pos (static_acts (toks lts) fin))
    [ev_block BlockBeginEvent StaticBlock fin; ev_trees StaticBlock fin (Trees 0 0 0 [] fixed_ll fixed_d); ev_block BlockEndEvent StaticBlock fin].
Proof.
  intros H. unfold static_acts. cbn [app acts_bits act_bits length]. rewrite acts_bits_app. cbn [acts_bits act_bits]. rewrite !app_nil_r.
  assert (E : bits_of_N 3 (if fin then 3 else 2)%N = [fin; true; false]) by (destruct fin; reflexivity).
  rewrite E, fixedLL_eq, fixedD_eq. eapply blockS_static. apply toks_bits; auto.
  apply Forall_impl with (P := tok_valid); [apply fixed_codes|]. apply toks_valid; auto.
Qed.

Lemma static_ok lts fin : Forall ltok_ok lts -> acts_ok (static_acts (toks lts) fin).
Proof.
  intros H. pose proof (toks_valid H) as HV. rewrite Forall_forall in HV. unfold static_acts.
  apply acts_ok_app. split; [repeat constructor; cbn; lia|].
  apply acts_ok_app. split; [|repeat constructor].
  apply acts_ok_flat. intros t Ht. apply tok_acts_ok; auto.
  - rewrite fixedLL_eq. apply fixed_ll_le.
  - rewrite fixedD_eq. apply fixed_d_le.
Qed.

(** ** Dynamic blocks *)
Lemma XTok_sym done ts out : XTok done ts out ->
  forall t x, In t ts -> xsym t = Some x -> (x < 19)%N.
Proof.
  induction 1; intros t x Hin Hx; cbn [In] in Hin; try tauto;
    (destruct Hin as [<-|Hin]; [|eapply IHXTok; eauto]);
    unfold xsym, symbolX in Hx; cbn [lol tdist] in Hx; change (0 =? 0)%N with true in Hx; cbn [negb] in Hx;
    repeat match type of Hx with context [(?a <? ?b)%N] => destruct (N.ltb_spec a b); try lia
                               | context [(?a <=? ?b)%N] => destruct (N.leb_spec a b); try lia end;
    cbn in Hx; inversion Hx; lia.
Qed.

Lemma XTok_ClEnc x done ts out : XTok done ts out ->
  (forall t s, In t ts -> xsym t = Some s -> 0 < code_size x s) ->
  forall pos, ClEnc x done out (acts_bits pos (flat_map (x_acts x) ts)).
Proof.
  induction 1 as [done|done n ts out Hn H IH|done p k ts out Hk H IH|done k ts out Hk H IH|done k ts out Hk H IH];
    intros HC pos; cbn [flat_map acts_bits]; [constructor| | | |];
    rewrite acts_bits_app;
    set (tk := Token _ 0) in *;
    assert (HC' : forall t s, In t ts -> xsym t = Some s -> 0 < code_size x s) by (intros; eapply HC; eauto; right; auto).
  - assert (E : symbolX tk = (Some (N.of_nat n), 0, 0%N)).
    { unfold tk, symbolX; cbn [lol tdist]. change (0 =? 0)%N with true. cbn [negb].
      repeat match goal with |- context [(?a <? ?b)%N] => destruct (N.ltb_spec a b); try lia
                               | |- context [(?a <=? ?b)%N] => destruct (N.leb_spec a b); try lia end.
      cbn [andb]. repeat f_equal. lia. }
    unfold x_acts at 1 3. rewrite E. cbn [opt_bits Nat.eqb acts_bits]. rewrite app_nil_r, hc_bits.
    apply cl_len; auto. split; auto. apply (HC tk); [left; auto|]. unfold xsym. now rewrite E.
  - assert (E : symbolX tk = (Some 16%N, 2, N.of_nat (k - 3))).
    { unfold tk, symbolX; cbn [lol tdist]. change (0 =? 0)%N with true. cbn [negb].
      repeat match goal with |- context [(?a <? ?b)%N] => destruct (N.ltb_spec a b); try lia
                               | |- context [(?a <=? ?b)%N] => destruct (N.leb_spec a b); try lia end;
      cbn [andb]; repeat f_equal; lia. }
    unfold x_acts at 1 3. rewrite E. cbn [opt_bits Nat.eqb acts_bits act_bits]. rewrite app_nil_r, hc_bits, <- app_assoc.
    replace k with (3 + N.to_nat (N.of_nat (k - 3))) at 1 by lia.
    apply cl_rep; [|lia|].
    + split; auto. apply (HC tk); [left; auto|]. unfold xsym. now rewrite E.
    + replace (3 + N.to_nat (N.of_nat (k - 3))) with k by lia. apply IH. auto.
  - assert (E : symbolX tk = (Some 17%N, 3, N.of_nat (k - 3))).
    { unfold tk, symbolX; cbn [lol tdist]. change (0 =? 0)%N with true. cbn [negb].
      repeat match goal with |- context [(?a <? ?b)%N] => destruct (N.ltb_spec a b); try lia
                               | |- context [(?a <=? ?b)%N] => destruct (N.leb_spec a b); try lia end;
      cbn [andb]; repeat f_equal; lia. }
    unfold x_acts at 1 3. rewrite E. cbn [opt_bits Nat.eqb acts_bits act_bits]. rewrite app_nil_r, hc_bits, <- app_assoc.
    replace k with (3 + N.to_nat (N.of_nat (k - 3))) at 1 by lia.
    apply cl_zero3; [|lia|].
    + split; auto. apply (HC tk); [left; auto|]. unfold xsym. now rewrite E.
    + replace (3 + N.to_nat (N.of_nat (k - 3))) with k by lia. apply IH. auto.
  - assert (E : symbolX tk = (Some 18%N, 7, N.of_nat (k - 11))).
    { unfold tk, symbolX; cbn [lol tdist]. change (0 =? 0)%N with true. cbn [negb].
      repeat match goal with |- context [(?a <? ?b)%N] => destruct (N.ltb_spec a b); try lia
                               | |- context [(?a <=? ?b)%N] => destruct (N.leb_spec a b); try lia end;
      cbn [andb]; repeat f_equal; lia. }
    unfold x_acts at 1 3. rewrite E. cbn [opt_bits Nat.eqb acts_bits act_bits]. rewrite app_nil_r, hc_bits, <- app_assoc.
    replace k with (11 + N.to_nat (N.of_nat (k - 11))) at 1 by lia.
    apply cl_zero7; [|lia|].
    + split; auto. apply (HC tk); [left; auto|]. unfold xsym. now rewrite E.
    + replace (11 + N.to_nat (N.of_nat (k - 11))) with k by lia. apply IH. auto.
Qed.

Lemma x_acts_ok hX t : sizes_le 15 hX -> acts_ok (x_acts hX t).
Proof.
  intros H. unfold x_acts. destruct (symbolX t) as [[[sx|] n] x] eqn:E; [|constructor].
  constructor; [apply hc_ok; auto|]. apply opt_bits_ok.
  unfold symbolX in E.
  repeat match type of E with context [if ?b then _ else _] => destruct b end; inversion E; lia.
Qed.

Lemma trim_numX_ok sX : forall n, 4 <= n <= 19 ->
  (forall i, n <= i < 19 -> nth (nth i scramble 0) sX 0 = 0) ->
  4 <= trim_numX n sX <= 19 /\ forall i, trim_numX n sX <= i < 19 -> nth (nth i scramble 0) sX 0 = 0.
Proof.
  induction n as [|n IH]; intros Hn Hz; [lia|].
  cbn [trim_numX]. destruct (Nat.ltb_spec 4 (S n)); cbn [andb]; [|split; auto].
  destruct (Nat.eqb_spec (nth (nth n scramble 0) sX 0) 0) as [E|E]; [|split; auto].
  apply IH; [lia|]. intros i Hi. destruct (Nat.eq_dec i n) as [->|]; auto. apply Hz. lia.
Qed.

Lemma cl_bits_acts sX n pos : n <= 19 ->
  acts_bits pos (map (fun i => ABits 3 (N.of_nat (nth (nth i scramble 0) sX 0))) (seq 0 n)) = cl_sizes_bits sX n.
Proof.
  intros Hn. unfold cl_sizes_bits.
  assert (E : firstn n cl_order = map (fun i => nth i scramble 0) (seq 0 n)).
  { assert (A : forall m, m <= 19 -> firstn m cl_order = map (fun i => nth i scramble 0) (seq 0 m)).
    { intros m Hm. do 20 (destruct m as [|m]; [reflexivity|]). lia. }
    apply A; auto. }
  rewrite E. generalize (seq 0 n). intros l. revert pos. induction l as [|i l IH]; intros pos; auto.
  cbn [map acts_bits act_bits flat_map]. f_equal. apply IH.
Qed.

Section Env.
Variable env : wenv.
Hypothesis Hhuff : huff_ok env.

(** The trees of a dynamic block, as the Writer computes them. *)
Record dyn_plan (sLL sD : list nat) (xt : list token) (numLL numD : nat) (sX : list nat) (numX : nat) : Prop := {
  dp_ll : exists t1, encodeTreeTokens [] sLL 257 = Ok (t1, numLL) /\ encodeTreeTokens t1 sD 1 = Ok (xt, numD);
  dp_x : exists fX, studyFrequenciesX xt = Ok fX /\ sX = e_huff env physicalNumXCodes fX;
  dp_numX : numX = trim_numX physicalNumXCodes sX;
  dp_tok : XTok [] xt (firstn numLL sLL ++ firstn numD sD);
  dp_trLL : tree_result sLL 257 numLL;
  dp_trD : tree_result sD 1 numD;
  dp_xok : length sX = 19 /\ sizes_le 7 sX /\ proper_code sX;
  dp_codes : forall t s, In t xt -> xsym t = Some s -> 0 < code_size sX s }.

Definition dyn_acts (sLL sD : list nat) (xt : list token) (numLL numD : nat) (sX : list nat) (numX : nat)
    (tokens : list token) (fin : bool) : list act :=
  [AEv (ev_block BlockBeginEvent DynamicBlock fin); ABits 3 (if fin then 5 else 4)%N;
   ABits 5 (N.of_nat (numLL - 257)); ABits 5 (N.of_nat (numD - 1)); ABits 4 (N.of_nat (numX - 4))]
  ++ map (fun i => ABits 3 (N.of_nat (nth (nth i scramble 0) sX 0))) (seq 0 numX)
  ++ flat_map (x_acts sX) xt
  ++ [AEv (ev_trees DynamicBlock fin (Trees (N.of_nat numX) (N.of_nat numLL) (N.of_nat numD) sX sLL sD))]
  ++ flat_map (tok_acts sLL sD) tokens
  ++ [AEv (ev_block BlockEndEvent DynamicBlock fin)].

Lemma dyn_plan_exists sLL sD : sizes_le 15 sLL -> sizes_le 15 sD -> length sLL = 288 -> length sD = 32 ->
  0 < code_size sLL 256 -> exists xt numLL numD sX numX, dyn_plan sLL sD xt numLL numD sX numX.
Proof.
  intros H1 H2 L1 L2 H256.
  destruct (@encodeTreeTokens_ok [] sLL 257 []) as [t1 [numLL [E1 [X1 R1]]]]; auto.
  { lia. }
  { intros i Hi. destruct (sizesAllZeroes (skipn i sLL)) eqn:E; auto. exfalso.
    apply zeroes_repeat in E. unfold code_size in H256. change (N.to_nat 256) with 256 in H256.
    rewrite <- (firstn_skipn i sLL), app_nth2 in H256; rewrite firstn_length in *; [|lia].
    rewrite E, nth_repeat in H256. lia. }
  destruct (@encodeTreeTokens_ok t1 sD 1 (firstn numLL sLL)) as [t2 [numD [E2 [X2 R2]]]]; auto.
  { lia. }
  { intros i Hi. lia. }
  cbn [app] in E1.
  assert (X : XTok [] (t1 ++ t2) (firstn numLL sLL ++ firstn numD sD)) by (eapply XTok_app; eauto).
  destruct (@study_x_ok (t1 ++ t2) (@XTok_sym _ _ _ X) (repeat 0%N 19)) as [fX [F1 [F2 F3]]].
  { apply repeat_length. }
  destruct (@Hhuff 19 fX ltac:(lia) F2) as [G1 [G2 [G3 G4]]]. cbn [Nat.eqb] in G2.
  exists (t1 ++ t2), numLL, numD, (e_huff env 19 fX), (trim_numX 19 (e_huff env 19 fX)).
  constructor; auto.
  - exists t1. auto.
  - exists fX. auto.
  - split; [congruence|]. auto.
  - intros t s Hin Hs. unfold code_size.
    assert (Hlt : (s < 19)%N) by (eapply XTok_sym; eauto).
    assert (P : (0 < nth (N.to_nat s) fX 0)%N).
    { rewrite F3, nth_repeat0 by auto. pose proof (count_pos Hin Hs). lia. }
    specialize (G4 (N.to_nat s)). destruct (Nat.eq_dec (nth (N.to_nat s) (e_huff env 19 fX) 0) 0) as [Z|Z]; [|lia].
    apply G4 in Z; lia.
Qed.

Lemma writeDynamic_run {S} (bw : bitwriter S) s sLL sD xt numLL numD sX numX lts fin :
  Forall ltok_ok lts -> dyn_plan sLL sD xt numLL numD sX numX ->
  writeDynamicBlock env bw s sLL sD (toks lts) fin = run bw (dyn_acts sLL sD xt numLL numD sX numX (toks lts) fin) s.
Proof.
  intros H P. pose proof (toks_valid H) as HV. rewrite Forall_forall in HV.
  destruct (dp_ll P) as [t1 [E1 E2]]. destruct (dp_x P) as [fX [E3 E4]].
  unfold writeDynamicBlock, assertb. rewrite lastIsStop_toks.
  unfold dyn_acts. cbn [app]. rewrite run_cons. cbn [do_act rbind]. rewrite run_cons. cbn [do_act].
  apply andthen_ext. intros s1. rewrite E1. cbn [rbind]. rewrite E2. cbn [rbind]. rewrite E3. cbn [rbind].
  rewrite <- E4, <- (dp_numX P). clear E1 E2 E3 E4.
  rewrite run_cons. apply andthen_ext. intros s2.
  rewrite run_cons. apply andthen_ext. intros s3.
  rewrite run_cons. apply andthen_ext. intros s4.
  rewrite run_app. rewrite (@for_each_run S nat bw _ (fun i => [ABits 3 (N.of_nat (nth (nth i scramble 0) sX 0))])).
  2:{ intros i s5 _. unfold run. cbn [for_each do_act]. now rewrite andthen_true. }
  rewrite flat_map_concat_map.
  replace (concat (map (fun i => [ABits 3 (N.of_nat (nth (nth i scramble 0) sX 0))]) (seq 0 numX)))
    with (map (fun i => ABits 3 (N.of_nat (nth (nth i scramble 0) sX 0))) (seq 0 numX)).
  2:{ generalize (seq 0 numX). intros l. induction l as [|i l IH]; cbn [map concat app]; auto. now rewrite IH. }
  apply andthen_ext. intros s5.
  rewrite run_app. rewrite (@for_each_run S token bw _ (x_acts sX)).
  2:{ intros t s6 _. apply encodeX_run. }
  apply andthen_ext. intros s6. cbn [app]. rewrite run_cons. cbn [do_act rbind]. rewrite run_app.
  rewrite (@for_each_run S token bw _ (tok_acts sLL sD)).
  - apply andthen_ext. intros s7. reflexivity.
  - intros t s7 Ht. apply encodeLLD_run. auto.
Qed.

Lemma proper_le15 l : proper_code l -> sizes_le 15 l.
Proof. intros [H _]; auto. Qed.

Lemma dyn_bits pos sLL sD xt numLL numD sX numX lts fin :
  Forall ltok_ok lts ->
  length sLL = 288 -> length sD = 32 -> proper_code sLL -> proper_code sD ->
  sizesAllZeroes (skipn 286 sLL) = true -> sizesAllZeroes (skipn 30 sD) = true ->
  Forall (tok_codes sLL sD) (toks lts) ->
  dyn_plan sLL sD xt numLL numD sX numX ->
  exists wt w, acts_bits pos (dyn_acts sLL sD xt numLL numD sX numX (toks lts) fin) = [fin; false; true] ++ wt ++ w /\
    TreesAt proper_code (Trees (N.of_nat numX) (N.of_nat numLL) (N.of_nat numD) sX sLL sD) wt /\ TokensEnc sLL sD lts w.
Proof.
  intros Hok L1 L2 P1 P2 Z1 Z2 HC P. unfold dyn_acts.
  cbn [app acts_bits act_bits length]. rewrite !acts_bits_app. cbn [acts_bits act_bits app length]. rewrite ?app_nil_r.
  assert (E : bits_of_N 3 (if fin then 5 else 4)%N = [fin; false; true]) by (destruct fin; reflexivity).
  rewrite E. clear E.
  destruct (dp_xok P) as [X1 [X2 X3]].
  pose proof (dp_trLL P) as R1. pose proof (dp_trD P) as R2.
  assert (N1 : numLL <= 286) by (eapply tree_result_le; eauto; lia).
  assert (N2 : numD <= 30) by (eapply tree_result_le; eauto; lia).
  pose proof R1 as [B1 _]. pose proof R2 as [B2 _].
  destruct (@trim_numX_ok sX 19) as [T1 T2]; [lia|intros; lia|].
  rewrite <- (dp_numX P : numX = trim_numX 19 sX) in T1, T2.
  rewrite cl_bits_acts by lia.
  rewrite (acts_bits_app _ (flat_map (tok_acts sLL sD) (toks lts))). cbn [acts_bits act_bits]. rewrite !app_nil_r.
  match goal with |- context [acts_bits ?p (flat_map (tok_acts _ _) _)] => set (p1 := p) end.
  match goal with |- context [acts_bits ?p (flat_map (x_acts _) _)] => set (p2 := p) end.
  match goal with |- context [[fin; false; true] ++ ?a ++ ?b ++ ?c ++ ?d ++ ?e ++ ?f] =>
    replace ([fin; false; true] ++ a ++ b ++ c ++ d ++ e ++ f) with
            ([fin; false; true] ++ (a ++ b ++ c ++ d ++ e) ++ f) by (rewrite <- !app_assoc; reflexivity); exists (a ++ b ++ c ++ d ++ e), f end.
  split; [reflexivity|]. split; [|apply toks_bits; auto].
  unfold TreesAt. cbn [t_x t_ll t_d t_xs t_lls t_ds]. rewrite !Nat2N.id.
  repeat match goal with |- _ /\ _ => split end; auto; try lia.
  exists (firstn numLL sLL), (firstn numD sD), (acts_bits p2 (flat_map (x_acts sX) xt)).
  unfold lenN. rewrite !firstn_length. repeat split; try lia.
  - apply XTok_ClEnc; [apply (dp_tok P)|apply (dp_codes P)].
  - rewrite (tree_result_pad R1) at 1. rewrite L1, Nat.min_l by lia. reflexivity.
  - rewrite (tree_result_pad R2) at 1. rewrite L2, Nat.min_l by lia. reflexivity.
  - replace (N.of_nat numLL - 257)%N with (N.of_nat (numLL - 257)) by lia. replace (N.of_nat numD - 1)%N with (N.of_nat (numD - 1)) by lia.
    replace (N.of_nat numX - 4)%N with (N.of_nat (numX - 4)) by lia. reflexivity.
Qed.

Lemma dyn_block lk pos hist hist' sLL sD xt numLL numD sX numX lts fin :
  Forall ltok_ok lts -> expand lk hist lts = Some hist' ->
  length sLL = 288 -> length sD = 32 -> proper_code sLL -> proper_code sD ->
  sizesAllZeroes (skipn 286 sLL) = true -> sizesAllZeroes (skipn 30 sD) = true ->
  Forall (tok_codes sLL sD) (toks lts) ->
  dyn_plan sLL sD xt numLL numD sX numX ->
  Block proper_code lk pos hist fin (acts_bits pos (dyn_acts sLL sD xt numLL numD sX numX (toks lts) fin)) hist'.
Proof.
  intros Hok HE L1 L2 P1 P2 Z1 Z2 HC P.
  destruct (@dyn_bits pos sLL sD xt numLL numD sX numX lts fin) as [wt [w [-> [HT HW]]]]; auto.
  apply at_trees in HT. cbn [t_lls t_ds] in HT. eapply block_dynamic; eauto.
Qed.

Lemma dyn_ok sLL sD xt numLL numD sX numX lts fin : Forall ltok_ok lts -> proper_code sLL -> proper_code sD ->
  dyn_plan sLL sD xt numLL numD sX numX ->
  acts_ok (dyn_acts sLL sD xt numLL numD sX numX (toks lts) fin).
Proof.
  intros H P1 P2 P. pose proof (toks_valid H) as HV. rewrite Forall_forall in HV.
  destruct (dp_xok P) as [X1 [X2 X3]]. unfold dyn_acts.
  apply acts_ok_app. split; [repeat constructor; cbn; lia|].
  apply acts_ok_app. split.
  { apply Forall_forall. intros a Ha. apply in_map_iff in Ha. destruct Ha as [i [<- _]]. cbn. lia. }
  apply acts_ok_app. split.
  { apply acts_ok_flat. intros t Ht. apply x_acts_ok. apply proper_le15; auto. }
  apply acts_ok_app. split; [repeat constructor|].
  apply acts_ok_app. split; [|repeat constructor].
  apply acts_ok_flat. intros t Ht. apply tok_acts_ok; auto; apply proper_le15; auto.
Qed.
End Env.
