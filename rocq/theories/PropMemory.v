(** C59: how much a Reader holds in memory. *)
From Coq Require Import Permutation.
From Verif Require Import Base SpecChecksum SpecDeflate SpecFormats MToken MCommon MWriter MReader SpecReader SpecLib PHeader PThread PLoop PAccept PRead PLog PChunk MSession MConc PConc PConc2 PConc4 PConc6 Demo PropReader PropReader3 PropConc PropRound PInst.

(** ** Decompressed data *)
Section Mem.
Variable cap : N.
(** the output buffer, and the chunk in the goroutine's hands or still to come *)
Record Mem (s : st) : Prop := {
  m_buf : (lenN (obuf s) <= cap)%N;
  m_held : (lenN (pend (thr s)) <= cap)%N;
  m_prog : Forall (small_chunk cap) (prog s) }.
Lemma len_skip k (l : list N) : (lenN (skipn k l) <= lenN l)%N.
Proof. unfold lenN. rewrite skipn_length. lia. Qed.
Lemma len_firstn k (l : list N) : (lenN (firstn k l) <= N.of_nat k)%N.
Proof. unfold lenN. pose proof (firstn_le_length k l). lia. Qed.
Lemma pend_signal2 t : pend (signal2 t) = pend t.
Proof. destruct t as [[]|]; reflexivity. Qed.
Lemma mem_fresh pr : Forall (small_chunk cap) pr -> Mem (fresh pr).
Proof. intros H. constructor; cbn; auto; apply N.le_0_l. Qed.
Lemma mem_call s c : Mem s -> Mem (add_call s c).
Proof. intros [A B C]. destruct s. constructor; auto. Qed.

Hypothesis Hcap : (0 < cap)%N.
Notation Inv := (PConc.Inv cap).
Lemma mem_cstep s i k j s' : Inv s -> Mem s -> cstep s i k j = Some s' -> Mem s'.
Proof.
  intros I [A B C] H. destruct s as [m1 m2 e b sta sto es fo t pr z cl h]. cbn -[lenN] in A, B, C, H.
  destruct (nth_error cl i) as [c|] eqn:E; [|discriminate].
  pose proof (i_noz I) as NZ. pose proof (cnt_in cz E) as LZ. cbn in NZ.
  destruct c; cbn in H; try discriminate; unfold mu_lock in H; try (cbn in LZ; lia);
    try (destruct m1; [discriminate|]; injection H as <-; constructor; auto; fail);
    try (destruct m2; [discriminate|]; injection H as <-; constructor; auto; fail);
    try (injection H as <-; constructor; auto; fail).
  - injection H as <-. constructor; auto. cbn -[lenN]. destruct sta; auto. apply N.le_0_l.
  - destruct e as [e|]; [|destruct b as [|b0 b]]; injection H as <-; constructor; cbn -[lenN]; rewrite ?pend_signal2; auto.
  - destruct e as [e|]; [|destruct b as [|b0 b]]; injection H as <-; constructor; auto.
  - destruct b as [|b0 b]; [injection H as <-; constructor; auto|]. remember (b0 :: b) as bb. clear Heqbb b0 b.
    destruct (_ && _) in H; [|discriminate].
    assert (L : (lenN (skipn k bb) <= cap)%N) by (pose proof (@len_skip k bb); lia).
    destruct (is_nil (skipn k bb)).
    + injection H as <-. constructor; cbn -[lenN]; rewrite ?pend_signal2; auto.
    + destruct (signal1 _ _) as [cl'|] eqn:ES; [|discriminate]. injection H as <-. constructor; auto.
  - injection H as <-. constructor; cbn -[lenN]; rewrite ?pend_signal2; auto. apply N.le_0_l.
  - destruct t; [discriminate|]. destruct z; [|discriminate]. injection H as <-. constructor; auto.
Qed.
Lemma mem_tstep s k j s' : Mem s -> tstep cap s k j = Some s' -> Mem s'.
Proof.
  intros [A B C] H. destruct s as [m1 m2 e b sta sto es fo t pr z cl h]. cbn -[lenN] in A, B, C, H.
  destruct t as [c|]; [|discriminate].
  destruct c; cbn -[lenN] in H; try discriminate; unfold mu_lock in H; cbn -[lenN] in B;
    try (destruct m1; [discriminate|]; injection H as <-; constructor; auto; fail);
    try (destruct m2; [discriminate|]; injection H as <-; constructor; auto; fail);
    try (injection H as <-; constructor; auto; fail).
  - destruct pr as [|[p|x] r]; [injection H as <-; constructor; auto| |]; inversion C; subst; injection H as <-; constructor; auto; cbn -[lenN].
    + destruct fo; [apply N.le_0_l|auto].
    + destruct es; apply N.le_0_l.
  - destruct p as [|p0 p]; injection H as <-; constructor; auto.
  - injection H as <-. constructor; auto. destruct (cap <=? lenN b)%N; auto.
  - injection H as <-. constructor; auto. destruct fo; auto. apply N.le_0_l.
  - destruct (_ =? 0) eqn:F0; [injection H as <-; constructor; auto|].
    destruct (_ && _) eqn:EK in H; [|discriminate].
    destruct (signal1 j cl) as [cl'|] eqn:ES; [|discriminate]. injection H as <-.
    apply andb_true_iff in EK. destruct EK as [_ EK]. apply Nat.leb_le in EK. apply Nat.eqb_neq in F0.
    constructor; auto; cbn -[lenN].
    + pose proof (@len_firstn k p) as L. unfold lenN in *. rewrite app_length. clear - L EK F0 A. lia.
    + pose proof (@len_skip k p) as L. clear - L B. lia.
Qed.
Lemma mem_step s s' : Inv s -> Mem s -> step cap s s' -> Mem s'.
Proof.
  intros I J [c H]. destruct c as [i k j|k j|]; cbn in H.
  - eapply mem_cstep; eauto.
  - eapply mem_tstep; eauto.
  - destruct s as [m1 m2 e b sta sto es fo t pr [|z] cl h]; [discriminate|]. injection H as <-. destruct J; constructor; auto.
Qed.
Lemma mem_steps s s' : Inv s -> Mem s -> steps (next cap reads_and_closes) s s' -> Mem s'.
Proof.
  intros I J H; induction H as [|s1 s2 s3 X H IH]; auto. apply IH; [eapply inv_next; eauto|].
  destruct X; eauto using mem_step, mem_call.
Qed.
End Mem.

Lemma reached_mem env opts src s : reached env opts src s -> Mem (out_cap (reffective opts)) s.
Proof.
  intros (r & E & H). destruct (log_of E) as (e & a & b & D & L & Ha & Hb & He).
  pose proof (out_cap_pos (reffective opts)) as Hc.
  assert (S : Forall (small_chunk (out_cap (reffective opts))) (o_log (r_out r))).
  { assert (L0 : PChunk.lgr (out_cap (reffective opts)) (reffective opts) (newReader src opts)) by (split; [reflexivity|split; [apply N.le_0_l|constructor]]).
    pose proof (@PChunk.lgr_thread _ Hc (reffective opts) eq_refl env _ L0) as K. rewrite E in K. exact (proj2 (proj2 K)). }
  assert (I0 : PConc.Inv (out_cap (reffective opts)) (fresh (o_log (r_out r)))) by (apply (inv_fresh Hc); rewrite L; apply has_err_mid).
  exact (mem_steps Hc I0 (mem_fresh S) H).
Qed.

(** ** C59 *)
(** What Reads have not yet taken of the decompressed data is at most one output
    buffer plus one chunk in the decompressor's hands, each no longer than the
    buffer the options ask for: 2^(memory level + 6) bytes, i.e. 128 bytes to
    32 KB, however large the data, however slow the Reads and under every schedule. *)
Definition buffer_size (opts : list opt) : N := (2 ^ (o_mlevel (reffective opts) + 6))%N.
Theorem C59_bounded_buffering :
  forall env opts src s, reached env opts src s ->
    (lenN (obuf s) <= buffer_size opts)%N /\ (lenN (pend (thr s)) <= buffer_size opts)%N.
Proof. intros env opts src s R. destruct (reached_mem R) as [A B _]. split; [exact A|exact B]. Qed.

(** So the decompressor never runs ahead of its Reads: it has handed over (for
    the Reads to fetch) at most two buffers more than they have fetched, unless a
    Close has discarded it. *)
Theorem C59_no_running_ahead :
  forall env opts src s d e, reached env opts src s -> decompress env opts src = Ok (d, e) -> canceled s \/
    exists produced, d = produced ++ log_data (prog s) /\
      (exists unread, produced = bytes_of (hist s) ++ unread /\ (lenN unread <= 2 * buffer_size opts)%N).
Proof.
  intros env opts src s d e R HD. destruct (C59_bounded_buffering R) as [A B].
  destruct (reached_inv R) as (x & a & b & D & _ & _ & [_ DA] & _). rewrite HD in D. injection D as D _. rewrite <- D in DA. clear D.
  destruct DA as [DA|DA]; [left; exact DA|right].
  exists (bytes_of (hist s) ++ obuf s ++ pend (thr s)). split.
  - rewrite <- DA, <- !app_assoc. reflexivity.
  - eexists. split; [reflexivity|]. unfold lenN in *. rewrite app_length. clear - A B. lia.
Qed.

(** ** C60: but a gzip file name or comment is held in memory whatever its length: for
    every [n] there is a valid input whose header makes a Reader hold [n] bytes
    at once, even at the lowest memory level. *)
Definition low_memory : list opt := [WithFormat GZIPFormat; WithMemoryLevel 1].
Definition long_name (n : nat) : gzip_fields := GzipFields false false None (Some (repeat 97%N n)) None 0 0 255.
Definition long_name_input (n : nat) : list N :=
  gzip_header (long_name n) ++ raw_a ++ le32 (spec_crc32 [97%N]) ++ le32 1.
Lemma long_name_ok n win : GzipStream (fun _ => StrictBlock win) None (long_name n) (long_name_input n) [97%N].
Proof.
  split.
  - unfold gzip_fields_ok; cbn [long_name gz_mtime gz_xfl gz_os gz_extra gz_name gz_comment]. split; [reflexivity|]. split; [reflexivity|]. split; [reflexivity|]. split; [exact I|]. split; [|exact I].
    split; [apply Forall_forall; intros x H; apply repeat_spec in H; subst; reflexivity|].
    intros H. apply repeat_spec in H. discriminate.
  - exists raw_a. split; [apply raw_a_ok|reflexivity].
Qed.
Theorem C60_refuted_long_header :
  buffer_size low_memory = 128%N /\
  forall n, exists h, decompress demo_renv low_memory [(long_name_input n, None); ([], Some EOF)] = Ok ([97%N], Some EOF) /\
    headers_reported demo_renv low_memory [(long_name_input n, None); ([], Some EOF)] = [h] /\ length (h_name h) = n.
Proof.
  split; [reflexivity|]. intros n.
  set (src := [(long_name_input n, None); ([], Some EOF)] : source).
  assert (HO : opts_ok low_memory) by (repeat constructor; cbn; lia).
  assert (SB : src_bytes src = long_name_input n) by (unfold src; cbn [src_bytes flat_map map concat fst]; rewrite ?app_nil_r; reflexivity).
  assert (HP : polite_src src) by (split; [discriminate|exact I]).
  assert (GS := @long_name_ok n (2 ^ o_wbits (reffective low_memory))).
  assert (V : valid_list demo_renv low_memory SGzip [SInfo SGzip (long_name_input n) [97%N] (hdr_of header0 (long_name n) [])]).
  { constructor; [|constructor]. split; [reflexivity|]. cbn [sb sd sh]. apply gzip_RSt; [exact demo_rlib_ok|idtac|exact GS|exact Logic.I].
    split; vm_compute; intro K; discriminate K. }
  assert (HB : bytes_ok (src_bytes src)).
  { rewrite SB. exact (gzip_bytes GS). }
  pose proof (@follow_all demo_renv demo_rlib_ok low_memory HO src HP HB SGzip _ eq_refl V) as F.
  cbn [map concat sb sd sh] in F. rewrite SB, app_nil_r in F. specialize (F eq_refl (or_intror (le_n 1))).
  unfold decompress, headers_reported. destruct (readThread demo_renv (newReader src low_memory)) as [r| |] eqn:ER; try contradiction.
  destruct F as (F1 & _ & F3 & _). eexists. cbn. rewrite F1. split; [reflexivity|]. split; [exact F3|].
  apply repeat_length.
Qed.
(** The bounds are met exactly: of 300 bytes at memory level 1 none has been
    read, 128 are in the output buffer and 128 in the goroutine's hands. *)
Example C59_met :
  exists s, reached demo_renv small_opts [(raw_300, None); ([], Some EOF)] s /\ buffer_size small_opts = 128%N /\
    hist s = [] /\ lenN (obuf s) = 128%N /\ lenN (pend (thr s)) = 128%N /\ ~ canceled s.
Proof.
  destruct (readThread demo_renv (newReader [(raw_300, None); ([], Some EOF)] small_opts)) as [r| |] eqn:E; [|vm_compute in E; discriminate|vm_compute in E; discriminate].
  assert (X : exists s, run_choices (out_cap (reffective small_opts)) (add_call (fresh (o_log (r_out r))) (RLock1 1))
      (repeat (GoClient 0 0 0) 2 ++ repeat (GoThread 0 0) 8 ++ [GoThread 128 0] ++ repeat (GoThread 0 0) 5) = Some s /\
    hist s = [] /\ lenN (obuf s) = 128%N /\ lenN (pend (thr s)) = 128%N /\ ~ canceled s).
  { vm_compute in E. injection E as <-. eexists. split; [vm_compute; reflexivity|]. split; [reflexivity|]. split; [reflexivity|]. split; [reflexivity|].
    intros [C|C]; vm_compute in C; [discriminate|lia]. }
  destruct X as (s & X1 & X2). exists s. split; [|split; [reflexivity|exact X2]].
  exists r. split; auto. econstructor; [apply next_call; constructor|]. eapply run_steps; exact X1.
Qed.
