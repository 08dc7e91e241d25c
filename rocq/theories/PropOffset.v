(** C56: the offsets of a CorruptInputError. *)
From Verif Require Import Base MCommon MToken MReader SpecReader PInput PLog POff Demo PropReader3.

(** For every input, every way it is chunked and every library: OffsetTotal and
    OffsetStream are positions in the input - modulo 2^64 -, the difference being
    where a stream was reported to begin. *)
Theorem C56_corruption_offsets :
  forall env opts src r d a b c, readThread env (newReader src opts) = Ok r ->
    r_result r = (d, Some (CorruptInputError a b c)) -> src_end src <> CorruptInputError a b c ->
    exists before used after, src_bytes src = before ++ used ++ after /\
      a = (lenN (before ++ used) mod two64)%N /\ b = (lenN used mod two64)%N /\
      exists e, In e (r_events r) /\ e_type e = StreamBeginEvent /\ e_inTotal e = (lenN before mod two64)%N.
Proof.
  intros env opts src r d a b c E R N. pose proof (ofr_thread env (ofi_new src opts)) as T. rewrite E in T. cbn [rall] in T.
  unfold r_result in R. unfold oe in T. assert (K : o_err (r_out r) = Some (CorruptInputError a b c)) by congruence. rewrite K in T.
  destruct T as [T|[before [used [after [T1 [T2 [T3 T4]]]]]]]; [congruence|]. exists before, used, after. auto 10.
Qed.
Print Assumptions C56_corruption_offsets.
(** Corollary: for inputs shorter than 2^64 bytes. *)
Theorem C56_corruption_offsets_bounded :
  forall env opts src r d a b c, readThread env (newReader src opts) = Ok r ->
    r_result r = (d, Some (CorruptInputError a b c)) -> src_end src <> CorruptInputError a b c -> (lenN (src_bytes src) < two64)%N ->
    (b <= a)%N /\ (a <= lenN (src_bytes src))%N.
Proof.
  intros env opts src r d a b c E R N L. destruct (C56_corruption_offsets E R N) as [x [y [z [H1 [H2 [H3 _]]]]]]. rewrite H1 in *. unfold lenN in *. rewrite !app_length in *.
  rewrite N.mod_small in H2, H3 by lia. lia.
Qed.
(** A second stream is damaged: [4b 04 00] is complete, the next byte begins a
    block of the reserved type. *)
Example C56_example : exists r, readThread demo_renv (newReader [([0x4b; 4; 0; 7; 7], None); ([], Some EOF)]%N raw_opts) = Ok r /\
  r_result r = ([97]%N, Some (CorruptInputError 4 1 CReservedBlock)).
Proof. eexists. split; vm_compute; reflexivity. Qed.
