(** C81: a stream does not depend on the streams written before it. *)
From Verif Require Import Base SpecHuffman MChecksum MToken MCommon MWriter SpecEvents SpecSession MSession MCalls PWSim PWFrame PInst PStreams PropWriter PropReset Demo PDemo.

(** [w] goes on, for the calls [cs], as [w2] behaves from its start on: same replies (or panics), what [w] adds to
    its output is the output of [w2], and the events [w] adds are those of [w2] (apart from running totals). *)
Definition continues (cs : list call) (env1 : wenv) (w : writer) (env2 : wenv) (w2 : writer) : Prop :=
  match w_calls env1 w cs, w_calls env2 w2 cs with
  | Ok (x, r1), Ok (y, r2) => r1 = r2 /\ sink (w_out x) = sink (w_out w) ++ sink (w_out y) /\
      map pre_of (w_events x) = map pre_of (w_events w) ++ map pre_of (w_events y)
  | Panic p, Panic q => p = q
  | NoFuel, NoFuel => True
  | _, _ => False
  end.

Lemma calls_app env cs1 : forall w cs2, w_calls env w (cs1 ++ cs2) =
  (let* (w', xs) := w_calls env w cs1 in let* (w'', ys) := w_calls env w' cs2 in Ok (w'', xs ++ ys)).
Proof.
  induction cs1 as [|c cs1 IH]; intros w cs2; cbn [app w_calls rbind].
  - destruct (w_calls env w cs2) as [[w' ys]| |]; reflexivity.
  - destruct (w_call env w c) as [[w1 x]| |]; cbn [rbind]; auto. rewrite IH. destruct (w_calls env w1 cs1) as [[w2 xs]| |]; cbn [rbind]; auto.
    destruct (w_calls env w2 cs2) as [[w3 ys]| |]; reflexivity.
Qed.

(** Whatever was done with a Writer before: after a Flush(FinishFlush) that returned nil, setting a header and
    writing something continues like a new Writer with the same options, used with the libraries and the
    underlying writer as they are now. *)
Theorem C81_next_stream_is_independent :
  forall env opts cs w rs h p cs2,
    platform env -> quiet env \/ no_reset cs ->
    w_calls env (newWriter opts) (cs ++ [KFlush FinishFlush]) = Ok (w, rs ++ [RError None]) ->
    Representable h -> p <> [] -> no_reset cs2 ->
    continues (KSetHeader h :: KWrite p :: cs2) env w (from_now env w) (newWriter (opts ++ given cs)).
Proof.
  intros env opts cs w rs h p cs2 Hb HQ E HR NE HN.
  rewrite calls_app in E. destruct (w_calls env (newWriter opts) cs) as [[w0 xs]| |] eqn:E0; cbn [rbind] in E; try discriminate.
  cbn [w_calls w_call] in E. destruct (w_Flush env w0 FinishFlush) as [[w1 e]| |] eqn:E1; cbn [rbind] in E; try discriminate.
  inversion E as [[EW ER]]. subst w1. apply app_inj_tail in ER. destruct ER as [_ ER]. inversion ER. subst e. clear E ER.
  assert (K : J env (effective (opts ++ given cs)) true w0).
  { pose proof (@calls_J env Hb true cs ltac:(tauto) _ _ (eq_sym (populate_idem _)) (J_new env true opts)) as K. rewrite E0 in K.
    rewrite populate_merge, <- opt_apply_app in K. exact K. }
  pose proof (finish_idle Hb K E1) as HI. clear K E1 E0 w0 xs. set (o := opts ++ given cs) in *. clearbody o.
  set (f := newWriter o). set (ka := lz_calls (w_lz w)). set (kb := sinkCalls (w_out w)). set (kc := w_flushes w). set (kd := w_syncs w).
  change (from_now env w) with (shift_env env ka kb kc kd). unfold continues. cbn [w_calls w_call].
  assert (SH : forall x, w_SetHeader x h = (set_hdr x h, true)).
  { intros x. destruct (C13_set_header x h) as [A _]. apply A in HR. revert HR. unfold w_SetHeader. cbv zeta. destruct (Nat.eqb _ 0); [reflexivity|discriminate]. }
  rewrite (SH w), (SH f). cbn [rbind].
  assert (S : arel ka kb kc kd (map pre_of (w_events w)) (sink (w_out w)) (w_Write env (set_hdr w h) p) (w_Write (shift_env env ka kb kc kd) (set_hdr f h) p)).
  { destruct HI as [[I1 [I2 I3]] I4 I5 I6 I7 I8 I9]. unfold f, newWriter. change (populateWriterDefaults (opt_apply options_reset o)) with (effective o).
    eapply next_write with (op := effective o); auto; try (destruct w; auto; fail).
    subst ka kb kc kd. destruct w as [q c [lo lh lb lc] i [bb bl ob sk sc oc ot os ws we] n hh ff s e]. unfold w_state in *. cbn in *. subst.
    apply wrel_intro; cbn; auto.
    - unfold same_opt. repeat split; auto.
    - unfold lrel. cbn. auto.
    - split; lia.
    - unfold orel. cbn. rewrite app_nil_r. repeat split; auto; congruence.
    - rewrite app_nil_r. auto. }
  destruct (w_Write env (set_hdr w h) p) as [[x1 [n1 e1]]| |], (w_Write _ (set_hdr f h) p) as [[y1 [n2 e2]]| |]; cbn [arel rbind] in *; try contradiction; auto.
  destruct S as [S1 S2]. inversion S1. subst n2 e2.
  pose proof (@like_nr env ka kb kc kd _ cs2 HN _ _ _ S2) as L.
  destruct (w_calls env x1 cs2) as [[x2 r1]| |], (w_calls _ y1 cs2) as [[y2 r2]| |]; cbn [rbind]; try contradiction; auto.
  destruct L as [-> L]. split; auto. split; [apply (wr_out L)|apply (wr_ev L)].
Qed.
Print Assumptions C81_next_stream_is_independent.

(** In particular: when the answers of the libraries do not depend on how often they were called, nor those of
    the underlying writer, the output is the concatenation of the outputs of two Writers. *)
Definition no_memory (bpb : nat) m pk hf sk fl sy : wenv := WEnv bpb (fun _ => m) (fun _ => pk) hf (fun _ => sk) (fun _ => fl) (fun _ => sy).
Theorem C81_concatenation :
  forall bpb m pk hf sk fl sy opts cs h p cs2 w1 r1 w2 r2,
    let env := no_memory bpb m pk hf sk fl sy in
    platform env -> no_reset cs -> Representable h -> p <> [] -> no_reset cs2 ->
    w_calls env (newWriter opts) (cs ++ [KFlush FinishFlush]) = Ok (w1, r1 ++ [RError None]) ->
    w_calls env (newWriter opts) (KSetHeader h :: KWrite p :: cs2) = Ok (w2, r2) ->
    exists w, w_calls env (newWriter opts) (cs ++ [KFlush FinishFlush] ++ KSetHeader h :: KWrite p :: cs2) = Ok (w, (r1 ++ [RError None]) ++ r2) /\
      sink (w_out w) = sink (w_out w1) ++ sink (w_out w2) /\
      map pre_of (w_events w) = map pre_of (w_events w1) ++ map pre_of (w_events w2).
Proof.
  intros bpb m pk hf sk fl sy opts cs h p cs2 w1 r1 w2 r2 env Hb HN HR NE HN2 E1 E2.
  pose proof (@C81_next_stream_is_independent env opts cs w1 r1 h p cs2 Hb (or_intror HN) E1 HR NE HN2) as K.
  assert (EG : given cs = []). { clear - HN. unfold given. induction HN as [|c cs H HN IH]; cbn; auto. destruct c; try contradiction; exact IH. }
  rewrite EG, app_nil_r in K. unfold continues in K. change (from_now env w1) with env in K. rewrite E2 in K.
  rewrite app_assoc, calls_app, E1. cbn [rbind]. destruct (w_calls env w1 _) as [[w r]| |]; try contradiction. destruct K as [-> [K1 K2]]. cbn [rbind]. eauto.
Qed.
Print Assumptions C81_concatenation.
Definition say (l : list N) : header := Header l [] None UnknownData OSTypeUnknown [] 0 0.
Definition C81_first : list call := [KSetHeader (say [65%N]); KWrite [97;98;99;97;98;99]%N; KFlush SyncFlush; KWrite [7]%N].
Definition C81_second : list call := [KSetHeader (say [66%N]); KWrite [1;2;3;1;2;3]%N; KClose].
Example C81_met : platform demo_wenv /\ quiet demo_wenv /\ Representable (say [66%N]) /\ exists w rs x y rx ry,
    w_calls demo_wenv (newWriter [WithFormat GZIPFormat; WithMemoryLevel 1]) (C81_first ++ [KFlush FinishFlush]) = Ok (w, rs ++ [RError None]) /\
    w_calls demo_wenv w C81_second = Ok (x, rx) /\ rx = [RHeader true; RWrite 6 None; RError None] /\
    w_calls demo_wenv (newWriter [WithFormat GZIPFormat; WithMemoryLevel 1]) C81_second = Ok (y, ry) /\
    sink (w_out x) = sink (w_out w) ++ sink (w_out y) /\ 20 < length (sink (w_out w)) /\ 20 < length (sink (w_out y)).
Proof.
  split; [right; reflexivity|]. split; [intros n; split; [reflexivity|left; reflexivity]|].
  split; [apply (C13_set_header (newWriter [])); reflexivity|].
  eexists _, [_; _; _; _], _, _, _, _. split; [vm_compute; reflexivity|]. split; [vm_compute; reflexivity|]. split; [reflexivity|].
  split; [vm_compute; reflexivity|]. split; [vm_compute; reflexivity|]. split; apply Nat.ltb_lt; vm_compute; reflexivity.
Qed.
(** Setting a header is necessary: without it the second stream is marked like the first (C26). *)
Definition C81_third : list call := [KWrite [97;98;99;97;98;99]%N; KClose].
Theorem C81_header_needed : exists w rs x y rx ry,
    w_calls demo_wenv (newWriter [WithFormat GZIPFormat; WithMemoryLevel 1]) [KWrite [1;2;3]%N; KFlush FinishFlush] = Ok (w, rs ++ [RError None]) /\
    w_calls demo_wenv w C81_third = Ok (x, rx) /\
    w_calls demo_wenv (newWriter [WithFormat GZIPFormat; WithMemoryLevel 1]) C81_third = Ok (y, ry) /\
    sink (w_out x) <> sink (w_out w) ++ sink (w_out y).
Proof.
  eexists _, [_], _, _, _, _. split; [vm_compute; reflexivity|]. split; [vm_compute; reflexivity|]. split; [vm_compute; reflexivity|].
  vm_compute. intros E. discriminate E.
Qed.
