(** C93: where a Writer's errors come from, and what the underlying writer is
    asked to write. *)
From Verif Require Import Base SpecHuffman MChecksum MToken MCommon MWriter SpecEvents SpecSession MSession PWriter PropWriter PWFrame Demo PDemo.
From Verif Require PSlice PBody.

(** The largest piece the underlying writer is handed. *)
Definition piece_limit (opts : list opt) : N := (2 ^ (o_mlevel (effective opts) + 7))%N.
Definition piece_ok (opts : list opt) (p : list N) : Prop := p <> [] /\ (lenN p <= piece_limit opts)%N.

(** Every error is the Writer's own "closed", or one that the underlying writer
    gave to a Write of a non-empty piece within the limit, to Flush or to Sync. *)
Theorem C93_error_provenance :
  forall env opts ops w x, w_session env (newWriter opts) ops = Ok (w, Some x) ->
    x = ErrClosed \/ (exists n p k, piece_ok opts p /\ e_sink env n p = Some (k, x)) \/
    (exists n, e_flushw env n = Some x) \/ (exists n, e_syncw env n = Some x).
Proof.
  intros env opts ops w x E.
  set (G := fun x => x = ErrClosed \/ (exists n p k, piece_ok opts p /\ e_sink env n p = Some (k, x)) \/ (exists n, e_flushw env n = Some x) \/ (exists n, e_syncw env n = Some x)).
  assert (K : PSlice.U2 (piece_limit opts) G (w_session env (newWriter opts) ops)).
  { apply PSlice.x_session; unfold G; eauto 10.
    - apply (PBody.cap_pos (effective opts)).
    - split; [reflexivity|]. split; [cbn; lia|discriminate]. }
  rewrite E in K. exact (proj2 K x eq_refl).
Qed.
(** An underlying writer that refuses empty pieces, or larger ones, with an
    error of its own never gets to do so. *)
Theorem C93_pieces :
  forall env opts ops w e refuse,
    refuse <> ErrClosed -> (forall n, e_flushw env n <> Some refuse) -> (forall n, e_syncw env n <> Some refuse) ->
    (forall n p k, piece_ok opts p -> e_sink env n p <> Some (k, refuse)) ->
    w_session env (newWriter opts) ops = Ok (w, e) -> e <> Some refuse.
Proof.
  intros env opts ops w e refuse H1 H2 H3 H4 E ->. destruct (@C93_error_provenance _ _ _ _ _ E) as [H|[[n [p [k [P H]]]]|[[n H]|[n H]]]];
  [exact (H1 H)|exact (H4 n p k P H)|exact (H2 n H)|exact (H3 n H)].
Qed.

(** ** The hypotheses are met *)
(** Refuses empty pieces and those longer than [m]. *)
Definition strict (m : N) : wenv :=
  WEnv 8 demo_match (fun _ => N.to_nat 4096) flat_huff
    (fun _ p => if ((lenN p =? 0) || (m <? lenN p))%N then Some (0, IOErr 7) else None) (fun _ => None) (fun _ => None).
Definition po : list opt := [WithFormat GZIPFormat; WithMemoryLevel 1].
Definition some_ops : list wop := [OWrite (repeat 97%N 60); OFlush SyncFlush; OWrite [98; 99]%N].
Example C93_hypotheses_met :
  (IOErr 7 <> ErrClosed) /\ (forall n p k, piece_ok po p -> e_sink (strict 256) n p <> Some (k, IOErr 7)) /\
  exists w, w_session (strict 256) (newWriter po) some_ops = Ok (w, None).
Proof.
  split; [discriminate|]. split; [|eexists; vm_compute; reflexivity]. intros n p k [P1 P2]. cbn [strict e_sink]. change (piece_limit po) with 256%N in P2.
  replace (lenN p =? 0)%N with false by (symmetry; apply N.eqb_neq; unfold lenN; destruct p; [congruence|cbn [length]; lia]).
  replace (256 <? lenN p)%N with false by (symmetry; apply N.ltb_ge; exact P2). discriminate.
Qed.
(** The limit matters: a stricter underlying writer does refuse. *)
Example C93_met_refused : exists w, w_session (strict 4) (newWriter po) some_ops = Ok (w, Some (IOErr 7)).
Proof. eexists. vm_compute. reflexivity. Qed.
(** ... and it is reached: some pieces have exactly this length. *)
Definition stored_opts : list opt := [WithFormat RawFormat; WithMemoryLevel 1; WithCompressLevel 0].
Example C93_limit_reached : piece_limit stored_opts = 256%N /\
  (exists w, w_session (strict 256) (newWriter stored_opts) [OWrite (repeat 97%N 300)] = Ok (w, None)) /\
  exists w, w_session (strict 255) (newWriter stored_opts) [OWrite (repeat 97%N 300)] = Ok (w, Some (IOErr 7)).
Proof. split; [reflexivity|]. split; eexists; vm_compute; reflexivity. Qed.
Print Assumptions C93_error_provenance.
Print Assumptions C93_pieces.
