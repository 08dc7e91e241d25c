(** C82: the counters carried by trace events are truthful. *)
From Verif Require Import Base MToken MCommon MWriter MReader MCalls SpecCount SpecReader PropReader3 Demo PInput PLog PCount PCountW.

(** Reading any input, by a Reader made with any options: the i-th StreamBegin is numbered i, every event carries
    the number of the stream it belongs to, and its stream counters are exactly how much the totals have grown
    since that stream began (64-bit counters). *)
Theorem C82_reader env opts src r :
  readThread env (newReader src opts) = Ok r -> Counters (0, 0, 0)%N (r_events r).
Proof.
  intros E. pose proof (@PCount.ofr_thread [] env (newReader src opts) eq_refl eq_refl eq_refl) as K. rewrite E in K. cbn [rall] in K.
  destruct K as [a [b [evs [H1 [H2 _]]]]]. rewrite H1. exact H2.
Qed.
(** The same for a Writer during its whole life: any client, any sequence of calls, any failures of the underlying
    writer, through any number of Resets (which start new streams but do not restart the numbering). *)
Theorem C82_writer env opts cs w rs :
  w_calls env (newWriter opts) cs = Ok (w, rs) -> Counters (0, 0, 0)%N (w_events w).
Proof. intros E. destruct (PCountW.p_session (PCountW.p_new opts) E) as [a [b [[H _] _]]]. exact H. Qed.
(** What the specification means: a StreamBegin event starts the stream counters at zero. *)
Theorem C82_begin_zero s e : e_type e = StreamBeginEvent -> fits s e -> (e_inTotal e < two64)%N -> (e_outTotal e < two64)%N ->
  e_inStream e = 0%N /\ e_outStream e = 0%N.
Proof.
  assert (K : forall a s, (a < two64)%N -> since a a s -> s = 0%N).
  { intros a x Ha [H1 H2]. assert (A : (a + x < 2 * two64)%N) by (clear - Ha H2; lia). destruct (N.lt_ge_cases (a + x) two64) as [L|L].
    - rewrite N.mod_small in H1 by exact L. clear - H1. lia.
    - assert (Q : ((a + x) mod two64 = a + x - two64)%N).
      { symmetry. apply N.mod_unique with (q := 1%N); clear - L A; lia. }
      rewrite Q in H1. clear - H1 H2 L. lia. }
  destruct s as [[n i] o]. unfold fits, mark. intros -> [_ [H1 H2]] H3 H4. split; [exact (K _ _ H3 H1)|exact (K _ _ H4 H2)].
Qed.
(** Two raw streams one after the other are numbered 1 and 2, the second beginning after 3 bytes of input. *)
Theorem C82_reader_met : exists r, readThread demo_renv (newReader [([0x4b; 4; 0; 0x4b; 4; 0], None); ([], Some EOF)]%N raw_opts) = Ok r /\
  map (fun e => (e_numStreams e, e_inTotal e, e_inStream e)) (filter (fun e => match e_type e with StreamBeginEvent | StreamCloseEvent => true | _ => false end) (r_events r))
  = [(1, 0, 0); (1, 3, 3); (2, 3, 0); (2, 6, 3)]%N.
Proof. eexists. split; [vm_compute; reflexivity|vm_compute; reflexivity]. Qed.
(** ... and a Writer finishing two streams numbers them so too. *)
Theorem C82_writer_met : exists w rs, w_calls demo_wenv (newWriter [WithFormat RawFormat]) [KWrite [97]%N; KFlush FinishFlush; KWrite [98; 99]%N; KClose] = Ok (w, rs) /\
  map (fun e => (e_numStreams e, e_inTotal e, e_inStream e)) (filter (fun e => match e_type e with StreamBeginEvent | StreamCloseEvent => true | _ => false end) (w_events w))
  = [(1, 0, 0); (1, 1, 1); (2, 1, 0); (2, 3, 2)]%N.
Proof. eexists. eexists. split; [vm_compute; reflexivity|vm_compute; reflexivity]. Qed.
