(** C04 seen from the Reader: decompression can begin at a full-flush point. *)
From Verif Require Import Base SpecChecksum SpecHuffman SpecDeflate SpecFormats SpecSession SpecEvents MChecksum PChecksum MToken MCommon MWriter MReader MSession SpecReader SpecLib PToken PHuffman PBits PActs PGram PInput POutput PDecode PDynamic PBlockDec PHeader PStream PFooter PThread PLoop PCompress PWriter PSession PInv PFormat PApi PInst PAccept PRead PropWriter PropReader PropRound Demo PDemo.

(** The length of what follows the compressed data of a stream (RFC 1950, RFC 1952). *)
Definition footer_len (opts : list opt) : nat :=
  match o_format (effective opts) with ZlibFormat => 4 | GZIPFormat => 8 | _ => 0 end.

Lemma app_inv_len {A} (a b c d : list A) : a ++ b = c ++ d -> length a = length c -> a = c /\ b = d.
Proof.
  revert c. induction a as [|x a IH]; intros [|y c]; cbn; try discriminate; auto. intros E L. injection E as -> E. injection L as L.
  destruct (IH c E L) as [-> ->]. auto.
Qed.

(** A Reader for raw DEFLATE data, without a dictionary and with a window at least as large as the Writer's, which is
    given just the bytes written after the FullFlush (less the footer of a zlib or gzip stream), produces exactly the
    data given to the Writer after the FullFlush, and then reports the end. *)
Theorem C04_reader_restarts :
  forall wenv renv wopts ropts ops1 w1 ops2 w2 w3 src, lib_ok wenv -> rlib_ok renv -> opts_ok wopts -> opts_ok ropts ->
    Forall op_ok ops1 -> Forall op_ok ops2 -> Forall (fun op => op <> OFlush FinishFlush) ops2 ->
    w_run wenv (newWriter wopts) (ops1 ++ [OFlush FullFlush]) = Ok (w1, None) ->
    (forall a, asteps a_init ops1 a -> a_cur a <> []) ->
    w_run wenv w1 ops2 = Ok (w2, None) -> w_Close wenv w2 = Ok (w3, None) ->
    o_format (reffective ropts) = RawFormat -> o_dict (reffective ropts) = None ->
    (o_wbits (effective wopts) <= o_wbits (reffective ropts))%N ->
    polite_src src ->
    (exists before after, sink (w_out w3) = before ++ src_bytes src ++ after /\
       length before = length (sink (w_out w1)) /\ length after = footer_len wopts) ->
    decompress renv ropts src = Ok (ops_data ops2, Some (src_end src)).
Proof.
  intros wenv renv wopts ropts ops1 w1 ops2 w2 w3 src HL HRL HO HRO H1 H2 H3 E1 HA E2 E3 RF RD RW HP (before & after & EB & LB & LA).
  destruct (@C04_full_flush_restart wenv wopts ops1 w1 ops2 w2 w3 HL HO H1 H2 H3 E1 HA E2 E3) as (body & d & EQ & HR).
  rewrite EQ in EB. apply app_inv_len in EB as [<- EB]; [|auto].
  assert (LF : length (stream_footer (effective wopts) d) = footer_len wopts).
  { unfold stream_footer, footer_len. destruct (o_format (effective wopts)); reflexivity. }
  apply app_inv_len in EB as [EB _].
  2: { apply (f_equal (@length N)) in EB. rewrite !app_length in EB. lia. }
  assert (HV : RawStream (StrictBlock (2 ^ o_wbits (reffective ropts))) [] (src_bytes src) (ops_data ops2)).
  { rewrite <- EB. eapply Raw_impl; [|exact HR]. intros pos h f w h'. apply strict_mono. apply N.pow_le_mono_r; [discriminate|exact RW]. }
  apply C27_reader_accepts_valid_stream with (f := SRaw); auto.
  - split; auto. exact (proj1 HV).
  - split; [auto|]. intros; discriminate.
  - unfold Acceptable. rewrite RD. exact HV.
Qed.

(** A case: a gzip stream; the bytes after the FullFlush, less the footer, are given to a raw Reader. *)
Definition gz5 := [WithFormat GZIPFormat; WithMemoryLevel 5].
Definition raw5 := [WithFormat RawFormat].
Example C04_met : exists w1 w2 w3 body after,
    w_run demo_wenv (newWriter gz5) ([OWrite [1;2;3;1;2;3;1;2;3]%N] ++ [OFlush FullFlush]) = Ok (w1, None) /\
    (forall a, asteps a_init [OWrite [1;2;3;1;2;3;1;2;3]%N] a -> a_cur a <> []) /\
    w_run demo_wenv w1 [OWrite [1;2;3;4]%N; OFlush SyncFlush; OWrite [7]%N] = Ok (w2, None) /\ w_Close demo_wenv w2 = Ok (w3, None) /\
    sink (w_out w3) = sink (w_out w1) ++ body ++ after /\ length after = footer_len gz5 /\ length body > 10 /\
    decompress demo_renv raw5 [(body, None); ([], Some EOF)] = Ok ([1;2;3;4;7]%N, Some EOF).
Proof.
  eexists _, _, _, ?[body], _. split; [vm_compute; reflexivity|]. split.
  { intros a H. inversion H as [|b op b1 ops1 b2 H1 H2]; subst. inversion H2; subst. inversion H1; subst. discriminate. }
  split; [vm_compute; reflexivity|]. split; [vm_compute; reflexivity|].
  repeat match goal with |- context [sink (w_out ?x)] => let s := eval vm_compute in (sink (w_out x)) in progress change (sink (w_out x)) with s end.
  match goal with |- ?l = ?a ++ ?b ++ _ /\ _ => let n := eval vm_compute in (length a) in let k := eval vm_compute in (length l - 8 - n) in
    let x := eval vm_compute in (firstn k (skipn n l)) in let y := eval vm_compute in (skipn (n + k) l) in unify b x end.
  split; [reflexivity|]. split; [reflexivity|]. split; [cbn; lia|]. vm_compute. reflexivity.
Qed.
Print Assumptions C04_reader_restarts.
