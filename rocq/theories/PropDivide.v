(** C71: does the output depend on how the data is divided among Write calls?
    C72: raw DEFLATE and zlib output does not depend on SetHeader. *)
From Verif Require Import Base SpecHuffman SpecLib MChecksum MToken MCommon MWriter SpecEvents SpecSession SpecDivide MSession MCalls PropReset
  PWSim PWFrame PWriter PFormat PInst PNoHeader PDivide PDivide2 Demo PDemo.

(** What a caller sees of a session: the bytes written, the error, the events. *)
Definition written (r : res (writer * option goerr)) : res (list N * option goerr) :=
  let* (w, e) := r in Ok (sink (w_out w), e).
Definition seen (r : res (writer * option goerr)) : res (list N * option goerr * list event) :=
  let* (w, e) := r in Ok (sink (w_out w), e, w_events w).
(** The calls without the SetHeader calls. *)
Definition no_headers (ops : list wop) : list wop :=
  filter (fun op => match op with OSetHeader _ => false | _ => true end) ops.

(** ** C72 *)
Lemma rel_written m1 m2 : rel_call m1 m2 -> written m1 = written m2.
Proof.
  unfold rel_call, written. destruct m1 as [[x e]| |], m2 as [[y f]| |]; cbn [rbind]; try contradiction; auto; try congruence.
  intros [H ->]. rewrite (r_out H). reflexivity.
Qed.
Lemma run_no_headers env ops : forall w1 w2, R w1 w2 -> rel_call (w_run env w1 ops) (w_run env w2 (no_headers ops)).
Proof.
  induction ops as [|c ops IH]; intros w1 w2 H; [cbn; auto|]. destruct c as [p|ft|h].
  - cbn [no_headers filter w_run]. fold (no_headers ops). pose proof (c_write env p H) as S. destruct (w_step env w1 _) as [[x e]| |], (w_step env w2 _) as [[y f]| |]; cbn [rel_call rbind] in *; try contradiction; auto.
    destruct S as [S ->]. destruct f; cbn [rel_call]; auto.
  - cbn [no_headers filter w_run]. fold (no_headers ops). pose proof (c_flush env ft H) as S. destruct (w_step env w1 _) as [[x e]| |], (w_step env w2 _) as [[y f]| |]; cbn [rel_call rbind] in *; try contradiction; auto.
    destruct S as [S ->]. destruct f; cbn [rel_call]; auto.
  - cbn [no_headers filter w_run w_step rbind]. fold (no_headers ops). apply IH. apply c_set; auto.
Qed.
Lemma session_no_headers env ops w1 w2 : R w1 w2 -> rel_call (w_session env w1 ops) (w_session env w2 (no_headers ops)).
Proof.
  intros H. unfold w_session. pose proof (run_no_headers env ops H) as S. destruct (w_run env w1 _) as [[x e]| |], (w_run env w2 _) as [[y f]| |]; cbn [rel_call rbind] in *; try contradiction; auto.
  destruct S as [S ->]. destruct f; cbn [rel_call]; auto. apply c_close; auto.
Qed.
Lemma new_fmt opts : o_format (effective opts) <> GZIPFormat -> o_format (w_opt (newWriter opts)) <> GZIPFormat.
Proof. intros H. exact H. Qed.

Theorem C72_header_unused :
  forall env opts ops, o_format (effective opts) <> GZIPFormat ->
    written (w_session env (newWriter opts) ops) = written (w_session env (newWriter opts) (no_headers ops)) /\
    written (w_run env (newWriter opts) ops) = written (w_run env (newWriter opts) (no_headers ops)).
Proof.
  intros env opts ops HF. pose proof (@R_refl (newWriter opts) (@new_fmt opts HF)) as H. split; apply rel_written.
  - apply session_no_headers; auto.
  - apply run_no_headers; auto.
Qed.
(** A case: two streams with headers, zlib. *)
Definition named (t : datatype) (n : list N) : header := Header n [] None t OSTypeUnknown [] 0 0.
Definition zl := [WithFormat ZlibFormat].
Definition with_headers := [OSetHeader (named TextData [65%N]); OWrite [1;2;3]%N; OFlush FinishFlush; OSetHeader (named BinaryData [66%N]); OWrite [4]%N].
Example C72_hypotheses_met : o_format (effective zl) <> GZIPFormat /\ no_headers with_headers = [OWrite [1;2;3]%N; OFlush FinishFlush; OWrite [4]%N] /\
  exists b, written (w_session demo_wenv (newWriter zl) with_headers) = Ok (b, None) /\ length b > 20.
Proof. split; [discriminate|]. split; [reflexivity|]. eexists. split; [vm_compute; reflexivity|]. cbn. lia. Qed.
(** For gzip it does depend on it. *)
Example C72_gzip_differs : written (w_session demo_wenv (newWriter [WithFormat GZIPFormat]) [OSetHeader (named TextData [65%N])]) <>
  written (w_session demo_wenv (newWriter [WithFormat GZIPFormat]) []).
Proof. vm_compute. discriminate. Qed.

(** ** C71 *)
Lemma eqr_seen m1 m2 : eqr m1 m2 -> seen m1 = seen m2.
Proof. intros H. inversion H; subst; auto. cbn [seen rbind]. destruct w; reflexivity. Qed.
Lemma seen_written m1 m2 : seen m1 = seen m2 -> written m1 = written m2.
Proof. unfold seen, written. destruct m1 as [[]| |], m2 as [[]| |]; cbn [rbind]; congruence. Qed.
Lemma eqr_session env m1 m2 : eqr m1 m2 ->
  eqr (let* (w, e) := m1 in match e with Some x => Ok (w, Some x) | None => w_Close env w end) (let* (w, e) := m2 in match e with Some x => Ok (w, Some x) | None => w_Close env w end).
Proof. intros H. inversion H; subst; constructor. Qed.

Lemma cap_input o : cap o = input_buffer o.
Proof. unfold cap, input_buffer, hybridOptions. destruct (o_strategy o); reflexivity. Qed.
Lemma thr_early o : thr o = early_block o.
Proof.
  unfold thr, early_block, compressConfig, isStoreConfig.
  destruct (o_clevel o =? 0)%Z eqn:E; [reflexivity|].
  destruct (o_strategy o); try reflexivity; destruct (0 <? o_clevel o)%Z eqn:E2; try reflexivity;
    assert (EZ : exists k, Z.to_nat (o_clevel o) = S k) by (exists (Z.to_nat (o_clevel o - 1)); lia);
    destruct EZ as [k ->]; reflexivity.
Qed.

Lemma divide env opts ops1 ops2 w : platform env -> ready (effective opts) w -> lz_buf (w_lz w) = [] -> Forall says_type ops1 -> Forall says_type ops2 -> same_calls ops1 ops2 ->
  (input_buffer (effective opts) <= early_block (effective opts))%N \/ fits (early_block (effective opts)) 0 ops1 ->
  eqr (w_session env w ops1) (w_session env w ops2).
Proof.
  intros HP HR HB H1 H2 HS HF. set (o := effective opts) in *.
  assert (EE : @lenN N [] = 0%N) by reflexivity.
  assert (GO : forall ops, Forall says_type ops -> (input_buffer o <= early_block o)%N \/ fits (early_block o) 0 ops -> eqr (w_session env w ops) (w_session env w (joined [] ops))).
  { intros ops HT HF2. unfold w_session. apply eqr_session. rewrite <- (@run_nil env o w ops HR). apply run_joined with (op := o); auto.
    split; auto. split; [constructor; auto; exact I|]. rewrite cap_input, thr_early. destruct HF2 as [F|F]; [left; auto|right]. exists 0%N. rewrite HB.
    split; [reflexivity|]. pose proof (thr_pos o) as TP. rewrite thr_early in TP. split; auto. cbn [fits]. rewrite EE. split; auto. }
  assert (F2 : (input_buffer o <= early_block o)%N \/ fits (early_block o) 0 ops2).
  { destruct HF as [F|F]; [left; auto|]. pose proof (thr_pos o) as TP. rewrite thr_early in TP.
    assert (J1 : fits (early_block o) 0 (joined [] ops1)) by (apply (proj2 (@fits_join env HP (early_block o) ops1 0%N [])); rewrite EE; auto).
    rewrite HS in J1. apply (proj1 (@fits_join env HP (early_block o) ops2 0%N [])) in J1. rewrite EE in J1. tauto. }
  eapply eqr_trans; [apply GO; auto|]. rewrite HS. apply eqr_sym, GO; auto.
Qed.
Lemma new_ready opts h : h_datatype h <> UnknownData -> ready (effective opts) (set_hdr (newWriter opts) h).
Proof.
  intros H. split; [|split; [exact H|apply cap_pos]].
  exists noStream. split; [unfold live; auto|]. split; [split; [reflexivity|split; reflexivity]|]. split; [reflexivity|split; [discriminate|split; [reflexivity|discriminate]]].
Qed.

(** The calls are the same except for how the data is divided among Writes.
    The first call says whether the data is text.  The Writer's input buffer
    is small (so blocks are cut only when it is full), or less data than makes
    an early block is written between any two Flushes.  Then bytes, error and
    events are the same. *)
Theorem C71_division_declared_partial :
  forall env opts h ops1 ops2, platform env -> Representable h -> h_datatype h <> UnknownData ->
    Forall says_type ops1 -> Forall says_type ops2 -> same_calls ops1 ops2 ->
    (input_buffer (effective opts) <= early_block (effective opts))%N \/ fits (early_block (effective opts)) 0 ops1 ->
    seen (w_session env (newWriter opts) (OSetHeader h :: ops1)) = seen (w_session env (newWriter opts) (OSetHeader h :: ops2)).
Proof.
  intros env opts h ops1 ops2 HP HR HK T1 T2 HS HF. unfold w_session. cbn [w_run w_step rbind].
  apply checked_iff in HR. unfold w_SetHeader. cbv zeta. unfold header_checked in HR. rewrite HR. cbn [Nat.eqb fst].
  apply eqr_seen. apply (@divide env opts ops1 ops2); auto. apply new_ready; auto.
Qed.
(** For raw DEFLATE and zlib the bytes and the error are the same whatever
    headers are set. *)
Theorem C71_division_plain_partial :
  forall env opts ops1 ops2, platform env -> o_format (effective opts) <> GZIPFormat ->
    same_calls (no_headers ops1) (no_headers ops2) ->
    (input_buffer (effective opts) <= early_block (effective opts))%N \/ fits (early_block (effective opts)) 0 ops1 ->
    written (w_session env (newWriter opts) ops1) = written (w_session env (newWriter opts) ops2).
Proof.
  intros env opts ops1 ops2 HP HG HS HF.
  assert (NT : forall ops, Forall says_type (no_headers ops)).
  { intros ops. apply Forall_forall. intros c Hc. apply filter_In in Hc. destruct c; try exact I. destruct Hc; discriminate. }
  assert (NF : forall n ops a, fits n a ops -> fits n a (no_headers ops)).
  { intros n ops. induction ops as [|[p|ft|h] ops IH]; intros a H; cbn in *; auto. destruct H; split; auto. }
  assert (TO : forall ops, written (w_session env (newWriter opts) ops) = written (w_session env (set_hdr (newWriter opts) (named TextData [])) (no_headers ops))).
  { intros ops. apply rel_written. apply session_no_headers. apply R_sym, (@c_set (named TextData [])) with (w2 := newWriter opts). apply R_refl, new_fmt; auto. }
  rewrite !TO. apply seen_written, eqr_seen. apply (@divide env opts); auto.
  - apply new_ready. discriminate.
  - destruct HF as [F|F]; [left; auto|right; auto].
Qed.

(** Cases. *)
Definition div1 := [OWrite [65;66]%N; OWrite []; OWrite [67]%N; OFlush SyncFlush; OWrite [68]%N].
Definition div2 := [OWrite [65;66;67]%N; OFlush SyncFlush; OWrite []; OWrite [68]%N].
Example C71_met_declared : platform demo_wenv /\ Representable (named TextData []) /\ Forall says_type div1 /\ same_calls div1 div2 /\
  fits (early_block (effective [])) 0 div1 /\ div1 <> div2 /\
  exists b e, seen (w_session demo_wenv (newWriter []) (OSetHeader (named TextData []) :: div1)) = Ok (b, None, e) /\ length b > 20.
Proof.
  split; [right; reflexivity|]. split; [apply checked_iff; reflexivity|]. split; [repeat constructor|]. split; [reflexivity|].
  split; [vm_compute; auto|]. split; [discriminate|]. eexists _, _. split; [vm_compute; reflexivity|]. cbn. lia.
Qed.
(** memory level 1: the 512-byte buffer is filled and cut into blocks *)
Definition tiny := [WithFormat RawFormat; WithMemoryLevel 1].
Example C71_met_plain : o_format (effective tiny) <> GZIPFormat /\ (input_buffer (effective tiny) <= early_block (effective tiny))%N /\
  same_calls (no_headers [OWrite (repeat 7%N 600); OWrite (repeat 7%N 600)]) (no_headers (repeat (OWrite (repeat 7%N 10)) 120)) /\
  exists b, written (w_session demo_wenv (newWriter tiny) [OWrite (repeat 7%N 600); OWrite (repeat 7%N 600)]) = Ok (b, None).
Proof.
  split; [discriminate|]. split; [vm_compute; discriminate|]. split; [vm_compute; reflexivity|]. eexists. vm_compute. reflexivity.
Qed.

(** The full claim is false of the code, for two reasons: the text flag of a
    gzip header looks only at the data of the first Write ... *)
Theorem C71_division_refuted :
  exists env opts ops1 ops2, lib_ok env /\ opts_ok opts /\ same_calls ops1 ops2 /\
    exists b1 b2, written (w_session env (newWriter opts) ops1) = Ok (b1, None) /\
                  written (w_session env (newWriter opts) ops2) = Ok (b2, None) /\ b1 <> b2.
Proof.
  exists demo_wenv, [WithFormat GZIPFormat], [OWrite [65%N]; OWrite [0%N]], [OWrite [65; 0]%N].
  split; [apply demo_lib_ok|]. split; [repeat constructor|]. split; [reflexivity|].
  eexists _, _. split; [vm_compute; reflexivity|]. split; [vm_compute; reflexivity|]. discriminate.
Qed.
(** ... and with an input buffer of more than 4096 bytes a Write ends a block as
    soon as 4096 bytes are pending, so that the blocks follow the Writes. *)
Definition mid := [WithFormat RawFormat; WithMemoryLevel 5].
Theorem C71_division_blocks_refuted :
  exists env opts ops1 ops2, lib_ok env /\ opts_ok opts /\ o_format (effective opts) = RawFormat /\ same_calls ops1 ops2 /\
    exists b1 b2, written (w_session env (newWriter opts) ops1) = Ok (b1, None) /\
                  written (w_session env (newWriter opts) ops2) = Ok (b2, None) /\ length b1 <> length b2.
Proof.
  exists demo_wenv, mid, [OWrite (repeat 7%N (N.to_nat 4196))], [OWrite (repeat 7%N (N.to_nat 4096)); OWrite (repeat 7%N (N.to_nat 100))].
  split; [apply demo_lib_ok|]. split; [repeat constructor; vm_compute; discriminate|]. split; [reflexivity|]. split; [vm_compute; reflexivity|].
  eexists _, _. split; [vm_compute; reflexivity|]. split; [vm_compute; reflexivity|]. cbn. discriminate.
Qed.
