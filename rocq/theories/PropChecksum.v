(** Properties C16, C17, C50: the checksums. *)
From Verif Require Import Base SpecChecksum MChecksum PChecksum.

(** C16: crc32.Hash fed with any sequence of writes holds the IEEE CRC-32 of
    their concatenation. *)
Theorem C16_crc32_exact : forall chunks, Forall bytes_ok chunks ->
  fold_left crc_update chunks crc_reset = spec_crc32 (concat chunks).
Proof. exact crc_chunks. Qed.
Print Assumptions C16_crc32_exact.

(** C17: adler32.Hash fed with any sequence of writes holds the Adler-32 of
    their concatenation; the model's additions wrap at 2^32. *)
Theorem C17_adler32_exact : forall chunks, Forall bytes_ok chunks ->
  fold_left adler_update chunks adler_reset = spec_adler32 (concat chunks).
Proof. exact adler_chunks. Qed.
Print Assumptions C17_adler32_exact.

(** C50: the amd64 and arm64 entry points agree with the generic code if their
    assembly kernels feed each bit of their argument to the shift register. *)
Theorem C50_amd64 : forall clmul sum p,
  kernel_contract clmul (fun n => (64 <=? n) && (n mod 16 =? 0)) ->
  (sum < two32)%N -> bytes_ok p -> arch_update_amd64 clmul sum p = arch_update_generic sum p.
Proof. exact arch_amd64_generic. Qed.
Print Assumptions C50_amd64.

Theorem C50_arm64 : forall kernel sum p,
  kernel_contract kernel (fun _ => true) ->
  (sum < two32)%N -> bytes_ok p -> arch_update_arm64 kernel sum p = arch_update_generic sum p.
Proof. exact arch_arm64_generic. Qed.
Print Assumptions C50_arm64.

(** The hypotheses can be met. *)
Example chunks_ok : Forall bytes_ok [[1; 255]; []; [7]]%N.
Proof. repeat constructor; vm_compute; reflexivity. Qed.
Example contract_ok : kernel_contract (fun sum p => fold_left crc_bit (bits_of_bytes p) sum) (fun _ => true).
Proof. unfold kernel_contract. auto. Qed.
