(** C60, what does hold: the name, the comment and the extra data of a header
    come out of the input, byte for byte, so all of them together are never
    longer than the input that was read for them; a header cannot announce a
    size and make the Reader allocate it. *)
From Verif Require Import Base SpecFormats SpecSession SpecReader MCommon MToken MReader PLoop PInput PLog PRead PropReader3 PropRound PHdr PropMemory Demo PDemo.

(** For every input, valid or not, however it is cut and however it ends: also
    of a stream that is found damaged later. *)
Theorem C60_header_within_input_partial :
  forall env opts src, Forall (fun h => length (h_name h) + length (h_comment h) + length (extra_bytes (h_extra h)) <= length (src_bytes src)) (headers_reported env opts src).
Proof.
  intros env opts src. unfold headers_reported. pose proof (@ofr_thread (length (src_bytes src)) env (newReader src opts)) as T.
  assert (C : ci (length (src_bytes src)) (newReader src opts)) by (split; [constructor|apply Nat.le_refl]). specialize (T C).
  destruct (readThread env (newReader src opts)) as [r| |]; cbn [rall] in T; try constructor. exact T.
Qed.
(** The bound is met up to the 22 bytes of [long_name_input] that are not the
    name: a header of any size, in an input just larger (C60_refuted_long_header). *)
Example C60_within_input_met :
  length (long_name_input 40) = 62 /\ exists h, headers_reported demo_renv low_memory [(long_name_input 40, None); ([], Some EOF)] = [h] /\ length (h_name h) = 40.
Proof. split; [vm_compute; reflexivity|]. eexists. split; vm_compute; reflexivity. Qed.
