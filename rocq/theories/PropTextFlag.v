(** C26: what the automatically detected text flag says, when it is detected. *)
From Verif Require Import Base SpecChecksum SpecEvents SpecHuffman SpecDeflate SpecFormats SpecSession SpecText MChecksum PChecksum MToken MCommon MWriter SpecLib MSession
  PToken PHuffman PTree PBits PActs PBlocks PCompress PWriter PSession PInv PFormat PApi PInst PClient PropWriter PropText PWFrame PPrefix Demo PDemo.

(** The bytes the Writer looks at: of the data of the Write that begins the
    stream, what fits into its input buffer, what the buffer hands out in one
    piece, and at most 4096 bytes. *)
Definition looked_at (env : wenv) (o : options) (calls : nat) (p : list N) : list N :=
  firstn (Nat.min (e_peek env calls) (N.to_nat 4096)) (firstn (N.to_nat (2 ^ (o_mlevel o + 8))) p).
(** The calls leave no stream open: all that was written was also finished. *)
Definition no_stream_open (ops : list wop) : Prop := forall a, asteps a_init ops a -> a_cur a = [].
(** The DataType is to be detected: nothing was done yet, or SetHeader was
    called last, with a DataType that is unknown. *)
Definition to_detect (ops : list wop) : Prop :=
  ops = [] \/ exists ops0 h, ops = ops0 ++ [OSetHeader h] /\ Representable h /\ h_datatype h = UnknownData.

Lemma run_app env : forall ops1 w ops2, w_run env w (ops1 ++ ops2) =
  let* (w', e) := w_run env w ops1 in match e with Some x => Ok (w', Some x) | None => w_run env w' ops2 end.
Proof.
  induction ops1 as [|op r IH]; intros w ops2; cbn [w_run app rbind]; [reflexivity|].
  destruct (w_step env w op) as [[x [e|]]| |]; cbn [rbind]; auto.
Qed.

(** A gzip stream begun by Write(p) when its DataType is to be detected: its
    header begins with 1f 8b 08 and a flags byte whose bit 0 (FTEXT) is set
    exactly if no control character is among the bytes looked at, whatever is
    written, flushed or set afterwards.  [ops1]: the calls made before.  Missing:
    streams after the first one without a SetHeader in between (C26_refuted). *)
Theorem C26_text_flag_partial :
  forall env opts ops1 w1 p ops2 w',
    lib_ok env -> opts_ok opts -> Forall op_ok ops1 -> o_format (effective opts) = GZIPFormat ->
    w_run env (newWriter opts) ops1 = Ok (w1, None) -> no_stream_open ops1 -> to_detect ops1 -> p <> [] ->
    w_session env w1 (OWrite p :: ops2) = Ok (w', None) ->
    exists calls flags rest, sink (w_out w') = sink (w_out w1) ++ [0x1f; 0x8b; 8; flags]%N ++ rest /\
      (N.testbit flags 0 = true <-> ~ exists b, In b (looked_at env (effective opts) calls p) /\ control b).
Proof.
  intros env opts ops1 w1 p ops2 w' HL HO Hops HG ER HN HT HP ES.
  pose proof (effective_ok HO) as Hw. pose proof (inst_strict (lib_lz HL) Hw) as HI.
  pose proof (@c_run env HL _ Hw 0 0 [] _ _ HI ops1 a_init (newWriter opts) (sess_new _ (lib_bpb HL) HO) Hops) as P.
  rewrite ER in P. cbn [PApi.apost] in P. destruct P as [a [A1 [bs [_ [[_ [B2 [_ [hd [_ B4]]]]]|[B1 _]]]]]]; [|elim B1; auto].
  assert (HD : h_datatype (w_hdr w1) = UnknownData).
  { destruct HT as [-> |[ops0 [h [-> [R1 R2]]]]].
    - cbn [w_run] in ER. inversion ER. reflexivity.
    - rewrite run_app in ER. destruct (w_run env (newWriter opts) ops0) as [[x [e|]]| |]; cbn [rbind w_run w_step] in ER; try discriminate. inversion ER as [EX].
      destruct (proj1 (C13_set_header x h)) as [_ C]. specialize (C R1). revert C. unfold w_SetHeader. match goal with |- context [if ?b then _ else _] => destruct b end; cbn [snd fst]; [|discriminate].
      intros _. destruct x. exact R2. }
  destruct (i_ok B4) as [k1 k2 k3 k4 k5 k6 k7 k8 k9].
  assert (HS : w_state w1 = noStream \/ w_state w1 = closedStream) by (rewrite (i_state B4); destruct (map snd (a_done a)); auto).
  assert (HF : o_format (w_opt w1) = GZIPFormat) by (rewrite k1; auto).
  assert (HC : lz_cap (w_lz w1) = (2 ^ (o_mlevel (effective opts) + 8))%N). { unfold lz_cap. rewrite k3. unfold hybridOptions. destruct (o_strategy _); reflexivity. }
  pose proof (@write_first env w1 p HF (proj1 k7) (i_len B4) HD HS B2 HP) as K. rewrite HC in K. fold (looked_at env (effective opts) (lz_calls (w_lz w1)) p) in K.
  unfold w_session in ES. cbn [w_run w_step] in ES. destruct (w_Write env w1 p) as [[x [n [e|]]]| |]; cbn [rbind] in ES, K; try discriminate.
  fold (w_session env x ops2) in ES. pose proof (@x_session env _ ops2 x K) as K2. rewrite ES in K2. destruct K2 as [rest K2].
  set (t := looked_at _ _ _ _) in *. eexists (lz_calls (w_lz w1)), _, rest. split; [rewrite K2, <- app_assoc; reflexivity|]. fold t.
  rewrite <- C46_is_text. destruct (w_hdr w1) as [hn hc hm hdt hos hx hwb hcl].
  unfold set_datatype, gzipFlagBits. cbn [h_datatype h_extra h_name h_comment]. destruct (isText t), hx, hn, hc; cbn; split; congruence.
Qed.
Print Assumptions C26_text_flag_partial.
(** Two streams, with SetHeader before the second: text and binary. *)
Example C26_met :
  let ops1 := [OWrite [97; 98; 99]%N; OFlush FinishFlush; OSetHeader header0] in
  lib_ok demo_wenv /\ no_stream_open ops1 /\ to_detect ops1 /\
  exists w1 w' rest, w_run demo_wenv (newWriter [WithFormat GZIPFormat; WithMemoryLevel 1]) ops1 = Ok (w1, None) /\
    w_session demo_wenv w1 [OWrite [0; 1; 2]%N] = Ok (w', None) /\
    sink (w_out w') = sink (w_out w1) ++ [0x1f; 0x8b; 8; 2]%N ++ rest.
Proof.
  cbv zeta. split; [apply demo_lib_ok|]. split.
  { intros a H. repeat match goal with H : asteps _ _ _ |- _ => inversion H; clear H; subst | H : astep _ _ _ |- _ => inversion H; clear H; subst end; reflexivity. }
  split.
  { right. eexists [_; _], _. split; [reflexivity|]. split; [|reflexivity]. vm_compute. repeat split; try tauto; try constructor; discriminate. }
  eexists _, _, _. split; [vm_compute; reflexivity|]. split; vm_compute; reflexivity.
Qed.
