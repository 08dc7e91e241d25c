(** Property C80: what an underlying writer that fails has been given is a prefix of the output. *)
From Verif Require Import Base SpecChecksum SpecHuffman SpecDeflate SpecFormats SpecSession SpecEvents MChecksum PChecksum MToken MCommon MWriter MReader MSession MCalls SpecReader SpecLib PBits PDecode PWriter PInst PRead PropWriter PropReader PropRound PropDurable Demo PDemo.
From Verif Require Import PWFrame PFail.
From Verif Require PPrefix PropWord.

(** [p] is a prefix of [l]. *)
Definition prefix (p l : list N) : Prop := exists rest, l = p ++ rest.

Section Run.
Variable env : wenv.
Hypothesis Hb : bytesPerBlock env = 4 \/ bytesPerBlock env = 8.
Notation env' := (never_failing env).
Definition srel (m1 m2 : res (writer * option goerr)) : Prop :=
  match m1, m2 with
  | Ok (x, None), Ok (y, None) => weq x y
  | Ok (x, None), _ => False
  | Ok (x, Some _), Ok (y, _) => prefix (sink (w_out x)) (sink (w_out y))
  | _, _ => True
  end.
Lemma step_rel op x y o : J env op false x -> weq x y -> srel (w_step env x o) (w_step env' y o).
Proof.
  intros HJ W. destruct o as [p|ft|h]; cbn [w_step].
  - destruct (w_Write env x p) as [[x' [n [e|]]]| |] eqn:E; cbn [rbind srel]; auto.
    + pose proof (@r_writeLoop env (2 * length p + 2) x y p W) as K. unfold w_Write in *. rewrite (weq_state W).
      destruct (weq_proj W) as (_ & _ & _ & _ & _ & _ & _ & _ & PS & _).
      destruct (w_state x); try (injection E as <- _ _; cbn [rbind]; exists []; rewrite app_nil_r; auto; fail);
      (destruct (writeLoop env _ x p) as [[x0 []]| |]; cbn [rbind] in E; try discriminate; injection E as -> _ _; cbn [rel] in K;
       destruct (writeLoop env' _ y p) as [[y0 []]| |]; cbn [rbind]; auto; exact K).
    + destruct (PropWord.write_ok Hb HJ E) as [E1 L]. pose proof (@r_writeLoop env (2 * length p + 2) x y p W) as K. rewrite E1 in K. destruct K as (y' & K1 & K2).
      unfold w_Write. rewrite (weq_state W), K1. destruct (w_state x); try discriminate; cbn [rbind]; exact K2.
  - destruct (w_Flush env x ft) as [[x' [e|]]| |] eqn:E; cbn [rbind srel]; auto.
    + pose proof (@r_flushImpl env x y ft W) as K. unfold w_Flush in *. rewrite (weq_state W).
      destruct (weq_proj W) as (_ & _ & _ & _ & _ & _ & _ & _ & PS & _).
      destruct (w_state x); try (injection E as <- _; cbn [rbind]; exists []; rewrite app_nil_r; auto; fail);
      (destruct (flushImpl env x ft) as [[x0 []]| |]; cbn [rbind] in E; try discriminate; injection E as -> _; cbn [rel] in K;
       destruct (flushImpl env' y ft) as [[y0 []]| |]; cbn [rbind]; auto; exact K).
    + destruct (PropWord.flush_ok Hb HJ E) as [E1 L]. pose proof (@r_flushImpl env x y ft W) as K. rewrite E1 in K. destruct K as (y' & K1 & K2).
      unfold w_Flush. rewrite (weq_state W), K1. destruct (w_state x); try discriminate; cbn [rbind]; exact K2.
  - cbn [srel]. unfold w_SetHeader. cbv zeta. destruct (Nat.eqb _ _); cbn [fst]; auto. apply r_hdr; auto.
Qed.
Lemma run_rel op ops : forall x y, J env op false x -> weq x y -> srel (w_run env x ops) (w_run env' y ops).
Proof.
  induction ops as [|o ops IH]; intros x y HJ W; cbn [w_run]; [exact W|]. pose proof (step_rel o HJ W) as K.
  pose proof (@j_run env Hb op false [o] x HJ) as HJ1. cbn [w_run] in HJ1.
  destruct (w_step env x o) as [[x1 [e|]]| |]; cbn [rbind srel] in *; auto.
  - destruct (w_step env' y o) as [[y1 [e'|]]| |]; cbn [rbind srel] in *; auto.
    destruct K as [r K]. assert (U : PPrefix.U (sink (w_out x1)) y1) by (exists r; exact K).
    pose proof (@PPrefix.x_run env' _ ops y1 U) as X. destruct (w_run env' y1 ops) as [[z e']| |]; cbn [PPrefix.U1] in X; auto.
  - destruct (w_step env' y o) as [[y1 [e'|]]| |]; cbn [rbind srel] in *; try contradiction. apply IH; auto.
Qed.
Lemma close_rel op x y : J env op false x -> weq x y -> match w_Close env x, w_Close env' y with
  | Ok (x', None), Ok (y', None) => sink (w_out x') = sink (w_out y')
  | Ok (x', None), _ => False
  | Ok (x', Some _), Ok (y', _) => prefix (sink (w_out x')) (sink (w_out y'))
  | _, _ => True end.
Proof.
  intros HJ W. pose proof (@r_flushImpl env x y FinishFlush W) as K. destruct (weq_proj W) as (_ & _ & _ & _ & _ & _ & _ & _ & PS & _).
  destruct (w_Close env x) as [[x' [e|]]| |] eqn:E; auto.
  - unfold w_Close in *. rewrite (weq_state W).
    assert (SC : forall z, sink (w_out (fst (close_helper z))) = sink (w_out z)) by (intros [? ? ? ? o ? ? ? ? ?]; destruct o; reflexivity).
    assert (SS : forall z s, sink (w_out (w_setstate z s)) = sink (w_out z)) by (intros [? ? ? ? o ? ? ? ? ?] s; destruct o; reflexivity).
    destruct (w_state x); try (injection E as <- _; exists []; rewrite app_nil_r; auto; fail);
    try (assert (E1 : close_helper x = (x', Some e)) by congruence; rewrite (surjective_pairing (close_helper y)); exists []; rewrite app_nil_r, SC, PS; rewrite <- (SC x), E1; reflexivity);
    (destruct (flushImpl env x FinishFlush) as [[x0 []]| |]; cbn [rbind] in E; try discriminate; assert (E1 : close_helper x0 = (x', Some e)) by congruence; cbn [rel] in K;
     assert (EX : sink (w_out x') = sink (w_out x0)) by (rewrite <- (SC x0), E1; reflexivity);
     destruct (flushImpl env' y FinishFlush) as [[y0 []]| |]; cbn [rbind]; auto;
     [rewrite EX, SS; exact K|rewrite (surjective_pairing (close_helper y0)), EX, SC; exact K]).
  - destruct (PropWord.close_ok Hb HJ E) as (u & E1 & E2 & L). rewrite E1 in K. destruct K as (y' & K1 & K2).
    unfold w_Close. rewrite (weq_state W), K1, E2. destruct (weq_proj K2) as (_ & _ & _ & _ & _ & _ & _ & _ & PS2 & _).
    destruct (w_state x); try discriminate; cbn [rbind]; rewrite <- PS2; destruct y' as [? ? ? ? o ? ? ? ? ?], o; reflexivity.
Qed.
End Run.
Lemma weq_new opts : weq (newWriter opts) (newWriter opts).
Proof. split; [split; [reflexivity|eexists; reflexivity]|]. eexists _, _. reflexivity. Qed.

(** Let the same session of calls go once over an underlying writer that may
    fail (at any call of Write, after having accepted any part of the bytes; or at
    a Flush or a Sync) and once over one that does not.  What the first was
    given up to the first error is a prefix of what the second was given in all;
    it is the same if there was no error. *)
Theorem C80_failed_output_is_a_prefix :
  forall env opts ops w e w', bytesPerBlock env = 4 \/ bytesPerBlock env = 8 ->
    w_session env (newWriter opts) ops = Ok (w, e) ->
    w_session (never_failing env) (newWriter opts) ops = Ok (w', None) ->
    prefix (sink (w_out w)) (sink (w_out w')) /\ (e = None -> sink (w_out w) = sink (w_out w')).
Proof.
  intros env opts ops w e w' Hb E1 E2. unfold w_session in *.
  pose proof (@run_rel env Hb _ ops _ _ (J_new env false opts) (weq_new opts)) as K.
  pose proof (@j_run env Hb _ false ops _ (J_new env false opts)) as HJ.
  destruct (w_run env (newWriter opts) ops) as [[x [r|]]| |]; cbn [rbind] in E1; try discriminate.
  - injection E1 as <- <-. split; [|discriminate]. cbn [srel] in K.
    destruct (w_run (never_failing env) (newWriter opts) ops) as [[y [r'|]]| |]; cbn [rbind] in E2; try discriminate.
    destruct K as [q K]. assert (HU : PPrefix.U (sink (w_out x)) y) by (exists q; exact K).
    pose proof (@PPrefix.x_Close (never_failing env) _ y HU) as X. rewrite E2 in X. exact X.
  - cbn [srel] in K. destruct (w_run (never_failing env) (newWriter opts) ops) as [[y [r'|]]| |]; cbn [rbind] in E2; try contradiction.
    pose proof (@close_rel env Hb _ x y HJ K) as X. rewrite E1, E2 in X. destruct e as [e|]; [split; [exact X|discriminate]|].
    split; auto. exists []. rewrite app_nil_r. auto.
Qed.

(** ... so that a Reader given just that produces a prefix of the data. *)
Theorem C80_failed_output_is_readable :
  forall wenv renv wopts ropts ops w e w' src, lib_ok wenv -> rlib_ok renv -> opts_ok wopts -> opts_ok ropts -> Forall op_ok ops ->
    w_session wenv (newWriter wopts) ops = Ok (w, e) ->
    w_session (never_failing wenv) (newWriter wopts) ops = Ok (w', None) -> matching wopts ropts ->
    polite_src src -> detached_src src -> src_bytes src = sink (w_out w) -> ~ is_corrupt (src_end src) ->
    exists d r, decompress renv ropts src = Ok (d, Some r) /\ prefix d (ops_data ops).
Proof.
  intros wenv renv wopts ropts ops w e w' src HL HRL HO HRO Hops E1 E2 M HP HD EB HC.
  destruct (@C80_failed_output_is_a_prefix wenv wopts ops w e w' (lib_bpb HL) E1 E2) as [[rest K] _].
  destruct (@C76_any_prefix (never_failing wenv) renv wopts ropts ops w' (sink (w_out w)) rest src) as (d & r & rr & X1 & X2); auto.
  - destruct HL; constructor; auto.
  - exists d, r. split; auto. exists rr. auto.
Qed.

(** A case: gzip with a name; the third Write of the underlying writer accepts one byte and fails. *)
Definition C80_ops : list wop := [OSetHeader (Header [65%N] [] None UnknownData OSTypeUnknown [] 0 0); OWrite [1;2;3;1;2;3]%N; OFlush SyncFlush; OWrite [9]%N].
Example C80_met : exists w w' y,
    w_session failing_env (newWriter [WithFormat GZIPFormat; WithMemoryLevel 1]) C80_ops = Ok (w, Some (IOErr 7)) /\
    w_session (never_failing failing_env) (newWriter [WithFormat GZIPFormat; WithMemoryLevel 1]) C80_ops = Ok (w', None) /\
    length (sink (w_out w)) = 13 /\ sink (w_out w') = sink (w_out w) ++ y /\ 10 < length y.
Proof.
  eexists _, _, _. split; [vm_compute; reflexivity|]. split; [vm_compute; reflexivity|]. split; [vm_compute; reflexivity|].
  split; [cbn [w_out sink app]; repeat apply f_equal; reflexivity|]. cbn. lia.
Qed.
(** When the first half of a gzip footer could not be written the second half is tried nevertheless; what
    arrives is still in order (here everything does, and yet the error is reported). *)
Definition flaky : wenv := WEnv 8 demo_match (fun _ => 0) flat_huff (fun n _ => if Nat.eqb n 9 then Some (0, IOErr 7) else None) (fun _ => None) (fun _ => None).
Example C80_footer : exists w w',
    w_session flaky (newWriter [WithFormat GZIPFormat; WithMemoryLevel 1]) [OWrite [1;2;3]%N] = Ok (w, Some (IOErr 7)) /\
    w_session (never_failing flaky) (newWriter [WithFormat GZIPFormat; WithMemoryLevel 1]) [OWrite [1;2;3]%N] = Ok (w', None) /\
    sink (w_out w) = sink (w_out w').
Proof. eexists _, _. split; [vm_compute; reflexivity|]. split; vm_compute; reflexivity. Qed.
Print Assumptions C80_failed_output_is_a_prefix.
Print Assumptions C80_failed_output_is_readable.
