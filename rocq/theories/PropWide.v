(** C87: a Reader does the same on 32-bit and on 64-bit platforms. *)
From Verif Require Import Base MCommon MToken MReader SpecReader PHuffman PInput PLog POff PWide PRead PropReader PropReader3 Demo PDemo.

Lemma ofi_reset r src opts : (i_total (r_in r) < two64)%N -> (i_stream (r_in r) < two64)%N ->
  exists p, Forall (fun x => x = 0%N) p /\ ofi (p ++ src_bytes src) (src_end src) (r_reset r src opts).
Proof.
  intros Ht Hs. destruct r as [o [i u] n h f ev]. unfold r_in in *. cbn [r_d d_in r_reset] in *.
  remember (i_total i) as t. remember (i_stream i) as s.
  set (b := ((t + (two64 - s)) mod two64)%N).
  exists (repeat 0%N (N.to_nat b) ++ repeat 0%N (N.to_nat s)). split.
  { apply Forall_app. split; apply Forall_forall; intros y Hy; apply repeat_spec in Hy; auto. }
  split; [|exact I]. exists (fun _ => True). unfold iv, r_in. cbn [r_d d_in i_total i_stream].
  split; [reflexivity|]. exists (repeat 0%N (N.to_nat b)), (repeat 0%N (N.to_nat s)).
  assert (L : forall k, lenN (repeat 0%N (N.to_nat k)) = k) by (intros k; unfold lenN; rewrite repeat_length; apply N2Nat.id).
  assert (LA : forall x y : list N, lenN (x ++ y) = (lenN x + lenN y)%N) by (intros; unfold lenN; rewrite app_length; apply Nat2N.inj_add).
  rewrite LA, !L. assert (NZ : two64 <> 0%N) by discriminate. generalize dependent two64. intros M Ht Hs b NZ.
  split; [unfold i_all; cbn [i_buf i_err i_src app]; rewrite <- app_assoc; reflexivity|]. split; auto. split.
  - unfold b. rewrite N.add_mod_idemp_l by auto. replace (t + (M - s) + s)%N with (t + 1 * M)%N by lia. rewrite N.mod_add by auto. symmetry. apply N.mod_small. auto.
  - symmetry. apply N.mod_small. auto.
Qed.
Lemma ofi_counters all send r : ofi all send r -> (i_total (r_in r) < two64)%N /\ (i_stream (r_in r) < two64)%N.
Proof. intros [[S [_ [b [u [_ [_ [-> ->]]]]]]] _]. split; apply N.mod_lt; discriminate. Qed.
Lemma thread_counters all send env r : ofi all send r -> rall (fun r => (i_total (r_in r) < two64)%N /\ (i_stream (r_in r) < two64)%N) (readThread env r).
Proof.
  intros H. unfold readThread. eapply rall_bind; [eapply ofr_streams; destruct r; exact H|]. intros q Hq. pose proof (ofi_counters Hq) as C. cbn [rall].
  destruct q as [op [i o] n h f ev]. unfold r_propagate, propagateError, r_in in *. cbn in *. destruct (i_err i) as [e|] eqn:E; cbn.
  - rewrite E. cbn. exact C.
  - destruct i; exact C.
Qed.

(** Everything a Reader does with one input after the other, Reset in between:
    the data and the error delivered, and the events. *)
Fixpoint readings (env : renv) (r : reader) (l : list (source * list opt)) : res (list ((list N * option goerr) * list event)) :=
  match l with
  | [] => Ok []
  | (src, opts) :: l =>
    let* r' := readThread env (r_reset r src opts) in
    let* x := readings env r' l in
    Ok ((r_result r', r_events r') :: x)
  end.

(** One input: the whole final state is the same - data, error (with its
    offsets), events, and panics -, for valid and invalid inputs, however they
    are cut and however they end, and whatever the libraries do. *)
Theorem C87_same_on_32_and_64_bits :
  forall env n1 n2 opts src, (n1 = 4 \/ n1 = 8) -> (n2 = 4 \/ n2 = 8) -> bytes_ok (src_bytes src) ->
    readThread (set_bpb n1 env) (newReader src opts) = readThread (set_bpb n2 env) (newReader src opts).
Proof. intros env n1 n2 opts src H1 H2 HB. exact (@q_thread (src_bytes src) (src_end src) HB env n1 n2 H1 H2 _ (ofi_new src opts)). Qed.
Theorem C87_same_result :
  forall env n1 n2 opts src, (n1 = 4 \/ n1 = 8) -> (n2 = 4 \/ n2 = 8) -> bytes_ok (src_bytes src) ->
    decompress (set_bpb n1 env) opts src = decompress (set_bpb n2 env) opts src.
Proof. intros. unfold decompress. rewrite (@C87_same_on_32_and_64_bits env n1 n2); auto. Qed.

(** Any history of one Reader. *)
Lemma readings_same env n1 n2 l : (n1 = 4 \/ n1 = 8) -> (n2 = 4 \/ n2 = 8) -> Forall (fun so => bytes_ok (src_bytes (fst so))) l ->
  forall r, (i_total (r_in r) < two64)%N -> (i_stream (r_in r) < two64)%N -> readings (set_bpb n1 env) r l = readings (set_bpb n2 env) r l.
Proof.
  intros H1 H2. induction 1 as [|[src opts] l HB _ IH]; intros r Ht Hs; cbn [readings]; [reflexivity|]. cbn [fst] in HB.
  destruct (ofi_reset src opts Ht Hs) as [p [Hp HO]].
  assert (BP : bytes_ok (p ++ src_bytes src)) by (apply bytes_ok_app; split; auto; eapply Forall_impl; [|exact Hp]; intros x ->; unfold is_byte; reflexivity).
  rewrite (@q_thread _ _ BP env n1 n2 H1 H2 _ HO). pose proof (thread_counters (set_bpb n2 env) HO) as C.
  destruct (readThread (set_bpb n2 env) (r_reset r src opts)) as [r'|c|]; cbn [rbind]; auto. rewrite (IH r'); [reflexivity|apply C|apply C].
Qed.
Theorem C87_same_history :
  forall env n1 n2 opts src l, (n1 = 4 \/ n1 = 8) -> (n2 = 4 \/ n2 = 8) -> bytes_ok (src_bytes src) -> Forall (fun so => bytes_ok (src_bytes (fst so))) l ->
    (let* r := readThread (set_bpb n1 env) (newReader src opts) in let* x := readings (set_bpb n1 env) r l in Ok ((r_result r, r_events r) :: x)) =
    (let* r := readThread (set_bpb n2 env) (newReader src opts) in let* x := readings (set_bpb n2 env) r l in Ok ((r_result r, r_events r) :: x)).
Proof.
  intros env n1 n2 opts src l H1 H2 HB HL. rewrite (@C87_same_on_32_and_64_bits env n1 n2); auto.
  pose proof (thread_counters (set_bpb n2 env) (ofi_new src opts)) as C. destruct (readThread (set_bpb n2 env) (newReader src opts)) as [r|c|]; cbn [rbind]; auto.
  rewrite (@readings_same env n1 n2 l H1 H2 HL r); [reflexivity|apply C|apply C].
Qed.

(** A concrete case: a valid stream and a damaged one. *)
Example C87_met :
  demo_renv = set_bpb 8 demo_renv /\
  decompress (set_bpb 4 demo_renv) raw_opts [(raw_a ++ [0x4b; 4; 0xff; 7], None)]%N = Ok ([97; 97]%N, Some (CorruptInputError 6 3 CBadD)).
Proof. split; [reflexivity|]. vm_compute. reflexivity. Qed.
