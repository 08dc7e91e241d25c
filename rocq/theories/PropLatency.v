(** C68: how much of the data passed to a Writer can still be missing from
    what it has written, after any successful calls. *)
From Verif Require Import Base SpecChecksum SpecEvents SpecHuffman SpecDeflate SpecFormats SpecSession SpecCost MChecksum PChecksum MToken MCommon MWriter MReader SpecLib MSession
  PToken PHuffman PTree PBits PActs PBlocks PCompress PWriter PSession PInv PFormat PApi PInst PClient Demo PDemo PropWriter.

Lemma block_size_eq o : blockSize o = block_size o.
Proof.
  unfold blockSize, block_size. f_equal. unfold compressConfig, isStoreConfig.
  destruct (o_clevel o =? 0)%Z eqn:E; [reflexivity|].
  destruct (o_strategy o); try reflexivity; destruct (0 <? o_clevel o)%Z eqn:E2; try reflexivity;
    assert (EZ : exists k, Z.to_nat (o_clevel o) = S k) by (exists (Z.to_nat (o_clevel o - 1)); lia);
    destruct EZ as [k ->]; reflexivity.
Qed.

(** ** C68 *)
(** After any successful calls: the output is the finished streams, then the
    header of the open one and whole blocks of it (up to [pending] bits that do
    not fill a machine word yet), and these blocks hold all the data passed
    since except less than one block. *)
Theorem C68_bounded_latency :
  forall env opts ops w', lib_ok env -> opts_ok opts -> Forall op_ok ops ->
    w_run env (newWriter opts) ops = Ok (w', None) ->
    exists a bs, asteps a_init ops a /\
      concat (map snd (a_done a)) ++ a_cur a = ops_data ops /\
      GoodStreams (effective opts) (a_done a) bs /\
      (a_cur a = [] -> sink (w_out w') = concat bs) /\
      (a_cur a <> [] -> exists hb bits pending sent held,
        StreamHeader (effective opts) (a_curh a) hb /\
        OpenData (StrictBlock (2 ^ o_wbits (effective opts))) (effective opts) bits sent /\
        a_cur a = sent ++ held /\ (lenN held < block_size (effective opts))%N /\
        bits_of_bytes (sink (w_out w')) ++ pending = bits_of_bytes (concat bs ++ hb) ++ bits /\
        length pending < 8 * bytesPerBlock env).
Proof.
  intros env opts ops w' HL HO Hops E.
  pose proof (effective_ok HO) as Hw. pose proof (inst_strict (lib_lz HL) Hw) as HI.
  assert (Hp : Forall (pf_ok True) ops) by (apply Forall_forall; intros op _ _; exact I).
  pose proof (@run_ok env (lib_bpb HL) (lib_huff HL) (effective opts) Hw _ _ 0%N 0%N [] (may_panic (effective opts))
    (in_stored HI) True (in_empty HI) (in_tok HI) (in_mono HI) (in_match HI) (in_pos HI)
    ops a_init (newWriter opts) (sess_new _ (lib_bpb HL) HO) Hops Hp (or_introl (fun H => H))) as P.
  rewrite E in P. cbn [PApi.apost] in P. destruct P as [a [P1 [[bs [HF P2]] P3]]].
  specialize (P3 (@short_nil _ (newWriter opts) eq_refl)). unfold short in P3. rewrite block_size_eq in P3.
  exists a, bs. split; auto. split; [pose proof (asteps_data P1) as D; cbn in D; rewrite <- D; reflexivity|].
  split; [apply good_streams; auto|].
  destruct P2 as [[Q1 [Q2 [Q3 _]]]|[Q1 [hd [hc [Q2 [Q3 [Q4 [c [Q5 Q6]]]]]]]]]; [split; auto; congruence|].
  split; [congruence|]. intros _.
  destruct (q_bits Q5) as [w2 [d2 [h [r [R1 [R2 [R3 [R4 R5]]]]]]]]. cbn [app] in R5. rewrite app_nil_r in R5. subst d2.
  exists (hdr_bytes (effective opts) hc), w2, (bits_of_N (obLen (w_out w')) (obBlock (w_out w'))), c, (lz_buf (w_lz w')).
  destruct (k_out (q_ok Q5)) as [O1 [_ [O3 _]]].
  split; [apply hdr_bytes_header; auto|]. split.
  { unfold OpenData. unfold smark in R2. rewrite length_bits_of_bytes in R2.
    match type of R2 with Blocks _ ?n _ _ _ => replace n with (n + 0) in R2 by lia end.
    apply (Blocks_pos (in_pos HI)) in R2. exact R2. }
  split; auto. split; auto. split.
  - fold (smark (effective opts) (concat bs) hc). rewrite <- R1. unfold obits. rewrite O1, app_nil_r. reflexivity.
  - rewrite length_bits_of_N. unfold bitsPerBlock in O3. lia.
Qed.
(** A case: 600 bytes with a buffer of 512 bytes; one stored block is out. *)
Definition latency_opts := [WithFormat RawFormat; WithCompressLevel 0; WithMemoryLevel 1].
Example C68_hypotheses_met : opts_ok latency_opts /\ Forall op_ok [OWrite (repeat 7%N 600)] /\
  block_size (effective latency_opts) = 512%N /\
  exists w', w_run demo_wenv (newWriter latency_opts) [OWrite (repeat 7%N 600)] = Ok (w', None) /\
    length (sink (w_out w')) = 5 + 512.
Proof.
  split; [repeat constructor|]. split; [constructor; [vm_compute; repeat constructor|constructor]|]. split; [reflexivity|]. eexists. split; [vm_compute; reflexivity|]. vm_compute. reflexivity.
Qed.
(** The bound is sharp: 511 bytes leave no trace. *)
Example C68_bound_is_sharp : exists w', w_run demo_wenv (newWriter latency_opts) [OWrite (repeat 7%N 511)] = Ok (w', None) /\
    sink (w_out w') = [].
Proof. eexists. split; [vm_compute; reflexivity|]. vm_compute. reflexivity. Qed.
Print Assumptions C68_bounded_latency.
