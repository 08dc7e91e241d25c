(** C69: a decompression bomb is at most a factor of 1032. *)
From Verif Require Import Base SpecHuffman MCommon MToken MReader SpecReader PInput PLog PBomb PRead SpecLib Demo PropReader3 PropReader4.

Lemma bits_bound n : 129 * (8 * n) = 1032 * n. Proof. rewrite Nat.mul_assoc. reflexivity. Qed.
Lemma acr_start r n : olen (d_out (r_d r)) = 0 -> nb (d_in (r_d r)) = 8 * n -> acr (1032 * n) r.
Proof. intros E1 E2. unfold acr, ac. rewrite E1, E2, bits_bound, Nat.add_0_r. apply le_n. Qed.
(** For every input - valid, damaged or malicious -, every way it is chunked,
    all options and every library: the bytes delivered are at most 1032 times
    the bytes of the input (258 bytes for two bits). *)
Theorem C69_expansion_bound :
  forall env opts src d e, decompress env opts src = Ok (d, e) ->
    length d <= 1032 * length (src_bytes src).
Proof.
  intros env opts src d e E. unfold decompress in E.
  assert (A : acr (1032 * length (src_bytes src)) (newReader src opts)).
  { apply acr_start; reflexivity. }
  pose proof (acr_thread env A) as T. destruct (readThread env (newReader src opts)) as [r| |]; cbn [rbind rall] in *; try discriminate.
  inversion E as [[E1 E2]]. unfold olen in T. eapply Nat.le_trans; [apply Nat.le_add_r|exact T].
Qed.
(** The same for a Reader that has come to an end, is Reset and used again. *)
Theorem C69_expansion_bound_reused :
  forall env opts opts' src' r d e, rlib_ok env -> Ended env opts r ->
    decompress_again env r src' opts' = Ok (d, e) -> length d <= 1032 * length (src_bytes src').
Proof.
  intros env opts opts' src' r d e HL HE E. unfold decompress_again in E.
  destruct (ended_facts HL HE) as [_ [_ [_ [Z _]]]].
  assert (A : acr (1032 * length (src_bytes src')) (r_reset r src' opts')).
  { apply acr_start; destruct r as [op [i o] n h f ev]; [reflexivity|]. unfold r_in in Z. cbn in Z. unfold nb, r_reset, i_all. cbn [r_d d_in ibl i_buf i_err i_src]. rewrite Z. reflexivity. }
  pose proof (acr_thread env A) as T. destruct (readThread env _) as [r'| |]; cbn [rbind rall] in *; try discriminate.
  inversion E as [[E1 E2]]. unfold olen in T. eapply Nat.le_trans; [apply Nat.le_add_r|exact T].
Qed.
(** 1000 zero bytes from 11 bytes: a factor of 90. *)
Definition bomb : list N := [99; 96; 24; 5; 163; 96; 20; 12; 119; 0; 0]%N.
Example C69_hypotheses_met : decompress demo_renv raw_opts [(bomb, None); ([], Some EOF)] = Ok (repeat 0%N 1000, Some EOF) /\ length bomb = 11.
Proof. split; [vm_compute; reflexivity|reflexivity]. Qed.
Print Assumptions C69_expansion_bound.
