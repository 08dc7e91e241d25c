(** Property C50, with the assembly: internal/crc32's amd64 and arm64 kernels,
    run instruction by instruction from any address and any initial registers,
    return, read only their argument, and compute what the generic Go code
    computes. *)
From Verif Require Import Base SpecChecksum MChecksum PChecksum MAsm PAsm PAsm2.

(** A slice that fits in the address space, as Go slices do. *)
Definition fits (base : N) (p : list N) : Prop :=
  (base < two64 /\ base + lenN p <= two64 /\ lenN p < 2 ^ 63)%N.

(** The amd64 kernel: for every slice whose length is at least 64 and a multiple
    of 16, whatever the address and the registers, the code reaches RET without
    an access outside the slice and returns the CRC register after every bit. *)
Theorem C50_amd64_kernel : forall base p sum r0,
  fits base p -> bytes_ok p -> (sum < two32)%N -> 64 <= length p -> length p mod 16 = 0 ->
  exists fuel, forall n, fuel <= n -> clmul_run (Slice base p) sum r0 n = Some (fold_left crc_bit (bits_of_bytes p) sum).
Proof.
  intros base p sum r0 (F0 & F1 & F2) Hb Hs L M. rewrite (crcp_spec sum Hb).
  refine (@clmul_reaches sum (Slice base p) F1 F2 Hb Hs r0 ((length p - 64) / 16) _). cbn [sl_bytes]. lia.
Qed.
Print Assumptions C50_amd64_kernel.

(** The arm64 kernel: the same for slices of every length. *)
Theorem C50_arm64_kernel : forall base p sum r0,
  fits base p -> bytes_ok p -> (sum < two32)%N ->
  exists fuel, forall n, fuel <= n -> arm_run (Slice base p) sum r0 n = Some (fold_left crc_bit (bits_of_bytes p) sum).
Proof.
  intros base p sum r0 (F0 & F1 & F2) Hb Hs. rewrite (crcp_spec sum Hb).
  exact (@arm_reaches sum (Slice base p) F1 F2 Hb Hs F0 r0).
Qed.
Print Assumptions C50_arm64_kernel.

(** What a Go caller gets from a kernel: what some run of the code returns. *)
Definition returned_by_clmul (kernel : N -> list N -> N) : Prop :=
  forall sum p, (sum < two32)%N -> bytes_ok p -> (lenN p < 2 ^ 63)%N -> 64 <= length p -> length p mod 16 = 0 ->
  exists base r0 n, fits base p /\ clmul_run (Slice base p) sum r0 n = Some (kernel sum p).
Definition returned_by_arm (kernel : N -> list N -> N) : Prop :=
  forall sum p, (sum < two32)%N -> bytes_ok p -> (lenN p < 2 ^ 63)%N ->
  exists base r0 n, fits base p /\ arm_run (Slice base p) sum r0 n = Some (kernel sum p).

(** More fuel does not change a result. *)
Lemma run_more sum m code : forall n c r v, run sum m code n c r = Some v -> forall k, run sum m code (n + k) c r = Some v.
Proof.
  induction n as [|n IH]; intros c r v H k; [discriminate H|]. cbn [Nat.add run] in *. destruct c as [|i c]; [discriminate|].
  destruct i; try (destruct (exec1 sum m _ r); [now apply IH|discriminate H]).
  - destruct (fst (cmp r) <? snd (cmp r))%N; [|now apply IH]. destruct (from l code); [now apply IH|discriminate].
  - destruct (sgn64 (snd (cmp r)) <=? sgn64 (fst (cmp r)))%Z; [|now apply IH]. destruct (from l code); [now apply IH|discriminate].
  - exact H.
Qed.
Lemma arun_more sum m code : forall n c r v, arun sum m code n c r = Some v -> forall k, arun sum m code (n + k) c r = Some v.
Proof.
  induction n as [|n IH]; intros c r v H k; [discriminate H|]. cbn [Nat.add arun] in *. destruct c as [|i c]; [discriminate|].
  destruct i; try (destruct (aexec1 sum m _ r); [now apply IH|discriminate H]).
  - destruct (sgn64 (fst (acmp r)) <? sgn64 (snd (acmp r)))%Z; [|now apply IH]. destruct (afrom l code); [now apply IH|discriminate].
  - destruct (afrom l code); [now apply IH|discriminate].
  - destruct (N.testbit (ag r r0) b); [now apply IH|]. destruct (afrom l code); [now apply IH|discriminate].
  - exact H.
Qed.

(** Both entry points are the generic function. *)
Theorem C50_amd64_assembly : forall kernel sum p,
  returned_by_clmul kernel -> (sum < two32)%N -> bytes_ok p -> (lenN p < 2 ^ 63)%N ->
  arch_update_amd64 kernel sum p = arch_update_generic sum p.
Proof.
  intros kernel sum p R Hs Hb Hl.
  set (k' := fun s q => if (lenN q <? 2 ^ 63)%N then kernel s q else fold_left crc_bit (bits_of_bytes q) s).
  assert (E : arch_update_amd64 kernel sum p = arch_update_amd64 k' sum p).
  { unfold arch_update_amd64. destruct (64 <=? length p); auto. unfold k'. destruct (N.ltb_spec (lenN (firstn (length p - length p mod 16) p)) (2 ^ 63)) as [_|H]; auto.
    exfalso. unfold lenN in *. rewrite firstn_length in H. lia. }
  rewrite E. apply arch_amd64_generic; auto. intros s q Hs' Hq Hok. unfold k'. destruct (N.ltb_spec (lenN q) (2 ^ 63)) as [L|L]; auto.
  apply andb_prop in Hok. destruct Hok as [O1 O2]. apply Nat.leb_le in O1. apply Nat.eqb_eq in O2.
  destruct (R s q Hs' Hq L O1 O2) as (base & r0 & n & F & C). destruct (@C50_amd64_kernel base q s r0 F Hq Hs' O1 O2) as [f G].
  specialize (G (n + f) ltac:(lia)). unfold clmul_run in *. rewrite (run_more C f) in G. congruence.
Qed.
Print Assumptions C50_amd64_assembly.

Theorem C50_arm64_assembly : forall kernel sum p,
  returned_by_arm kernel -> (sum < two32)%N -> bytes_ok p -> (lenN p < 2 ^ 63)%N ->
  arch_update_arm64 kernel sum p = arch_update_generic sum p.
Proof.
  intros kernel sum p R Hs Hb Hl.
  set (k' := fun s q => if (lenN q <? 2 ^ 63)%N then kernel s q else fold_left crc_bit (bits_of_bytes q) s).
  assert (E : arch_update_arm64 kernel sum p = arch_update_arm64 k' sum p).
  { unfold arch_update_arm64, k'. destruct (N.ltb_spec (lenN p) (2 ^ 63)) as [_|H]; auto. lia. }
  rewrite E. apply arch_arm64_generic; auto. intros s q Hs' Hq _. unfold k'. destruct (N.ltb_spec (lenN q) (2 ^ 63)) as [L|L]; auto.
  destruct (R s q Hs' Hq L) as (base & r0 & n & F & C). destruct (@C50_arm64_kernel base q s r0 F Hq Hs') as [f G].
  specialize (G (n + f) ltac:(lia)). unfold arm_run in *. rewrite (arun_more C f) in G. congruence.
Qed.
Print Assumptions C50_arm64_assembly.

(** The hypotheses can be met: the kernels do return something. *)
Example returned_met : returned_by_clmul (fun sum p => fold_left crc_bit (bits_of_bytes p) sum) /\
  returned_by_arm (fun sum p => fold_left crc_bit (bits_of_bytes p) sum).
Proof.
  split; intros sum p Hs Hb Hl.
  - intros L M. assert (F : fits 4096 p) by (unfold fits, two64; lia).
    destruct (@C50_amd64_kernel 4096 p sum (Regs (fun _ => 0%N) (fun _ => 0%N) (0, 0)%N 0%N) F Hb Hs L M) as [f G]. do 3 eexists. split; [exact F|]. exact (G f (le_n f)).
  - assert (F : fits 4096 p) by (unfold fits, two64; lia).
    destruct (@C50_arm64_kernel 4096 p sum (ARegs (fun _ => 0%N) (0, 0)%N 0%N) F Hb Hs) as [f G]. do 3 eexists. split; [exact F|]. exact (G f (le_n f)).
Qed.
(** A run of each kernel. *)
Definition sample : list N := map (fun i => N.of_nat (i * 37 mod 256)) (seq 0 96).
Example amd64_runs : clmul_run (Slice 1000 sample) 0xFFFFFFFF (Regs (fun _ => 77%N) (fun _ => 5%N) (9, 9)%N 3%N) 500
  = Some (fold_left crc_bit (bits_of_bytes sample) 0xFFFFFFFF%N).
Proof. vm_compute. reflexivity. Qed.
Example arm64_runs : arm_run (Slice 1000 (firstn 23 sample)) 0xFFFFFFFF (ARegs (fun _ => 77%N) (9, 9)%N 3%N) 500
  = Some (fold_left crc_bit (bits_of_bytes (firstn 23 sample)) 0xFFFFFFFF%N).
Proof. vm_compute. reflexivity. Qed.
