(** Model of the two assembly kernels of internal/crc32: a small instruction
    set with registers, memory and flags, and the code, line by line.  Loads
    outside the slice and unknown labels are faults.

    Simplifications: the slice lies at an arbitrary address but does not wrap
    around the address space; the read-only constants are values, not memory
    (their 16-byte alignment is not modelled); Go's FP-relative operands are the
    arguments; only the flags used (unsigned below, signed order) exist. *)
From Verif Require Import Base.

Definition two128 : N := 2 ^ 128.

(** The slice: where it is and what it contains. *)
Record slice := Slice { sl_base : N; sl_bytes : list N }.
Fixpoint le_num (l : list N) : N := match l with [] => 0%N | b :: t => (b + 256 * le_num t)%N end.
(** A little-endian load of [n] bytes. *)
Definition load (m : slice) (a : N) (n : nat) : option N :=
  if (sl_base m <=? a)%N && (a + N.of_nat n <=? sl_base m + lenN (sl_bytes m))%N
  then Some (le_num (firstn n (skipn (N.to_nat (a - sl_base m)) (sl_bytes m))))
  else None.
(** 64-bit two's complement *)
Definition sgn64 (x : N) : Z := if (x <? 2 ^ 63)%N then Z.of_N x else (Z.of_N x - 2 ^ 64)%Z.

(** ** amd64 *)
(** Carry-less product of two 64-bit numbers (PCLMULQDQ). *)
Fixpoint clmul_n (n : nat) (a b : N) : N :=
  match n with
  | O => 0%N
  | S m => N.lxor (clmul_n m a b) (if N.testbit b (N.of_nat m) then N.shiftl a (N.of_nat m) else 0%N)
  end.
Definition clmul64 (a b : N) : N := clmul_n 64 a b.
Definition half (x : N) (hi : bool) : N := (if hi then N.shiftr x 64 else N.land x (N.ones 64))%N.
(** Byte-wise comparison (PCMPEQB). *)
Fixpoint pcmpeqb_n (n : nat) (a b : N) : N :=
  match n with
  | O => 0%N
  | S m => ((if (N.land a 255 =? N.land b 255)%N then 255 else 0) + 256 * pcmpeqb_n m (N.shiftr a 8) (N.shiftr b 8))%N
  end.

Inductive greg := SI | CX | DI | AX.
Inductive label := loopback64 | remain64 | remain16 | finish.
Inductive instr :=
| MOVL_sum (d : nat)                  (* MOVL sum+0(FP), Xd *)
| MOVQ_ptr (d : greg)                 (* MOVQ p+8(FP), r *)
| MOVQ_len (d : greg)                 (* MOVQ p_len+16(FP), r *)
| MOVOU (off : N) (d : nat)           (* MOVOU off(SI), Xd *)
| MOVOAc (c : N) (d : nat)            (* MOVOA sym<>+0(SB), Xd; MOVQ sym<>+0(SB), Xd *)
| MOVOA (s d : nat)
| PXOR (s d : nat)
| PAND (s d : nat)
| PCLMULQDQ (imm : N) (s d : nat)     (* bit 0 of imm selects the half of d, bit 4 that of s *)
| PCMPEQB (s d : nat)
| PSRLDQ (n : N) (d : nat)            (* the whole register, by bytes *)
| PSRLQ (n : N) (d : nat)             (* each 64-bit half, by bits *)
| ADDQ (n : N) (d : greg)
| SUBQ (n : N) (d : greg)
| CMPQ (r : greg) (n : N)
| JB (l : label)
| JGE (l : label)
| LABEL (l : label)
| PEXTRD (n : N) (s : nat) (d : greg)
| MOVL_ret (s : greg)                 (* MOVL r, ret+32(FP) *)
| RET.

Record regs := Regs { xmm : nat -> N; gpr : greg -> N; cmp : N * N; ret : N }.
Definition setx (r : regs) (k : nat) (v : N) : regs :=
  Regs (fun j => if Nat.eqb j k then v else xmm r j) (gpr r) (cmp r) (ret r).
Definition greg_eqb (a b : greg) : bool :=
  match a, b with SI, SI | CX, CX | DI, DI | AX, AX => true | _, _ => false end.
Definition setg (r : regs) (k : greg) (v : N) : regs :=
  Regs (xmm r) (fun j => if greg_eqb j k then v else gpr r j) (cmp r) (ret r).

Section Amd64.
Variable sum : N.       (* argument sum *)
Variable m : slice.     (* argument p *)
(** Instructions other than jumps and RET. *)
Definition exec1 (i : instr) (r : regs) : option regs :=
  match i with
  | MOVL_sum d => Some (setx r d sum)
  | MOVQ_ptr d => Some (setg r d (sl_base m))
  | MOVQ_len d => Some (setg r d (lenN (sl_bytes m)))
  | MOVOU off d => match load m ((gpr r SI + off) mod two64)%N 16 with Some v => Some (setx r d v) | None => None end
  | MOVOAc c d => Some (setx r d c)
  | MOVOA s d => Some (setx r d (xmm r s))
  | PXOR s d => Some (setx r d (N.lxor (xmm r d) (xmm r s)))
  | PAND s d => Some (setx r d (N.land (xmm r d) (xmm r s)))
  | PCLMULQDQ imm s d => Some (setx r d (clmul64 (half (xmm r d) (N.testbit imm 0)) (half (xmm r s) (N.testbit imm 4))))
  | PCMPEQB s d => Some (setx r d (pcmpeqb_n 16 (xmm r d) (xmm r s)))
  | PSRLDQ n d => Some (setx r d (N.shiftr (xmm r d) (8 * n)))
  | PSRLQ n d => Some (setx r d (N.lor (N.shiftr (half (xmm r d) false) n) (N.shiftl (N.shiftr (half (xmm r d) true) n) 64)))
  | ADDQ n d => Some (setg r d ((gpr r d + n) mod two64)%N)
  | SUBQ n d => Some (setg r d ((gpr r d + (two64 - n)) mod two64)%N)
  | CMPQ a n => Some (Regs (xmm r) (gpr r) (gpr r a, n) (ret r))
  | LABEL _ => Some r
  | PEXTRD n s d => Some (setg r d (N.land (N.shiftr (xmm r s) (32 * n)) (N.ones 32)))
  | MOVL_ret s => Some (Regs (xmm r) (gpr r) (cmp r) (N.land (gpr r s) (N.ones 32)))
  | JB _ | JGE _ | RET => None
  end.
Definition label_eqb (a b : label) : bool :=
  match a, b with
  | loopback64, loopback64 | remain64, remain64 | remain16, remain16 | finish, finish => true
  | _, _ => false
  end.
(** The code from a label on. *)
Fixpoint from (l : label) (code : list instr) : option (list instr) :=
  match code with
  | [] => None
  | LABEL k :: t => if label_eqb k l then Some t else from l t
  | _ :: t => from l t
  end.
Variable code : list instr.
(** Runs the code [c] that is left; a jump continues in the whole [code].  The
    result is None after a fault or when [fuel] instructions were not enough. *)
Fixpoint run (fuel : nat) (c : list instr) (r : regs) : option N :=
  match fuel with
  | O => None
  | S f =>
    match c with
    | [] => None
    | RET :: _ => Some (ret r)
    | JB l :: t => if (fst (cmp r) <? snd (cmp r))%N then match from l code with Some c' => run f c' r | None => None end else run f t r
    | JGE l :: t => if (sgn64 (snd (cmp r)) <=? sgn64 (fst (cmp r)))%Z then match from l code with Some c' => run f c' r | None => None end else run f t r
    | i :: t => match exec1 i r with Some r' => run f t r' | None => None end
    end
  end.
End Amd64.

(** crc32_amd64.s:15-21 (the directives; the first quadword is the low half) *)
Definition quad (lo hi : N) : N := (lo + N.shiftl hi 64)%N.
Definition r2r1 : N := quad 0x154442bd4 0x1c6e41596.
Definition r4r3 : N := quad 0x1751997d0 0x0ccaa009e.
Definition rupoly : N := quad 0x1db710641 0x1f7011641.
Definition r5 : N := 0x163cd6124.

(** crc32_amd64.s:32-155 ieeeCLMUL, in the pieces between jumps *)
Definition clmul_start : list instr := [   (* lines 33-44 *)
  MOVL_sum 0; MOVQ_ptr SI; MOVQ_len CX;
  MOVOU 0 1; MOVOU 16 2; MOVOU 32 3; MOVOU 48 4;
  PXOR 0 1; ADDQ 64 SI; SUBQ 64 CX; CMPQ CX 64 ].
Definition clmul_pre : list instr := [ MOVOAc r2r1 0 ].    (* line 47 *)
Definition clmul_loop64 : list instr := [  (* lines 49-83 *)
  MOVOA 1 5; MOVOA 2 6; MOVOA 3 7; MOVOA 4 8;
  PCLMULQDQ 0 0 1; PCLMULQDQ 0 0 2; PCLMULQDQ 0 0 3; PCLMULQDQ 0 0 4;
  MOVOU 0 11; MOVOU 16 12; MOVOU 32 13; MOVOU 48 14;
  PCLMULQDQ 0x11 0 5; PCLMULQDQ 0x11 0 6; PCLMULQDQ 0x11 0 7; PCLMULQDQ 0x11 0 8;
  PXOR 5 1; PXOR 6 2; PXOR 7 3; PXOR 8 4;
  PXOR 11 1; PXOR 12 2; PXOR 13 3; PXOR 14 4;
  ADDQ 0x40 DI; ADDQ 64 SI; SUBQ 64 CX; CMPQ CX 64 ].
Definition clmul_remain64 : list instr := [  (* lines 88-109 *)
  MOVOAc r4r3 0;
  MOVOA 1 5; PCLMULQDQ 0 0 1; PCLMULQDQ 0x11 0 5; PXOR 5 1; PXOR 2 1;
  MOVOA 1 5; PCLMULQDQ 0 0 1; PCLMULQDQ 0x11 0 5; PXOR 5 1; PXOR 3 1;
  MOVOA 1 5; PCLMULQDQ 0 0 1; PCLMULQDQ 0x11 0 5; PXOR 5 1; PXOR 4 1;
  CMPQ CX 16 ].
Definition clmul_remain16 : list instr := [  (* lines 114-122 *)
  MOVOU 0 10; MOVOA 1 5; PCLMULQDQ 0 0 1; PCLMULQDQ 0x11 0 5; PXOR 5 1; PXOR 10 1;
  SUBQ 16 CX; ADDQ 16 SI; CMPQ CX 16 ].
Definition clmul_finish : list instr := [  (* lines 127-153 *)
  PCMPEQB 3 3; PCLMULQDQ 1 1 0; PSRLDQ 8 1; PXOR 0 1;
  MOVOA 1 2; MOVOAc r5 0; PSRLQ 32 3;
  PSRLDQ 4 2; PAND 3 1; PCLMULQDQ 0 0 1; PXOR 2 1;
  MOVOAc rupoly 0;
  MOVOA 1 2; PAND 3 1; PCLMULQDQ 0x10 0 1; PAND 3 1; PCLMULQDQ 0 0 1; PXOR 2 1;
  PEXTRD 1 1 AX; MOVL_ret AX ].
Definition clmul_code : list instr :=
  clmul_start ++ [JB remain64] ++ clmul_pre ++
  [LABEL loopback64] ++ clmul_loop64 ++ [JGE loopback64] ++
  [LABEL remain64] ++ clmul_remain64 ++ [JB finish] ++
  [LABEL remain16] ++ clmul_remain16 ++ [JGE remain16] ++
  [LABEL finish] ++ clmul_finish ++ [RET].

(** Registers hold anything at the start. *)
Definition clmul_run (m : slice) (sum : N) (r0 : regs) (fuel : nat) : option N :=
  run sum m clmul_code fuel clmul_code r0.

(** ** arm64 *)
(** CRC32B/H/W/X, as in the Arm Architecture Reference Manual:
      tempacc = BitReverse(acc) : Zeros(size)
      tempval = BitReverse(val) : Zeros(32)
      X[d] = BitReverse(Poly32Mod2(tempacc EOR tempval, 0x04C11DB7<31:0>)) *)
Definition bitrev (n : nat) (x : N) : N := N_of_bits (rev (bits_of_N n x)).
(** Poly32Mod2: for i = n+31 downto 32: if data<i> then data<i-1:0> ^= poly:Zeros(i-32) *)
Fixpoint poly32 (n : nat) (data : N) : N :=
  match n with
  | O => N.land data (N.ones 32)
  | S k => poly32 k (if N.testbit data (N.of_nat (k + 32)) then N.lxor data (N.shiftl 0x104C11DB7 (N.of_nat k)) else data)
  end.
Definition crc32_insn (size : nat) (acc val : N) : N :=
  bitrev 32 (poly32 size (N.lxor (N.shiftl (bitrev 32 acc) (N.of_nat size)) (N.shiftl (bitrev size val) 32))).

Inductive areg := R9 | R10 | R11 | R13.
Inductive alabel := update | less_than_8 | less_than_4 | less_than_2 | done.
Inductive ainstr :=
| A_MOVWU_sum (d : areg)             (* MOVWU sum+0(FP), r *)
| A_MOVD_ptr (d : areg)              (* MOVD p+8(FP), r *)
| A_MOVD_len (d : areg)              (* MOVD p_len+16(FP), r *)
| A_LOAD_P (n : nat) (a d : areg)    (* MOVD.P 8(a), d; MOVWU.P 4(a), d; MOVHU.P 2(a), d: load, then a += n *)
| A_MOVBU (a d : areg)               (* MOVBU (a), d *)
| A_CRC32 (size : nat) (s d : areg)  (* CRC32X/W/H/B s, d *)
| A_SUB (n : N) (d : areg)
| A_CMP (n : N) (r : areg)           (* compares r with n *)
| A_BLT (l : alabel)
| A_JMP (l : alabel)
| A_TBZ (b : N) (r : areg) (l : alabel)
| A_LABEL (l : alabel)
| A_MOVWU_ret (s : areg)             (* MOVWU r, ret+32(FP) *)
| A_RET.
Record aregs := ARegs { ag : areg -> N; acmp : N * N; aret : N }.
Definition areg_eqb (a b : areg) : bool :=
  match a, b with R9, R9 | R10, R10 | R11, R11 | R13, R13 => true | _, _ => false end.
Definition aset (r : aregs) (k : areg) (v : N) : aregs :=
  ARegs (fun j => if areg_eqb j k then v else ag r j) (acmp r) (aret r).
Definition alabel_eqb (a b : alabel) : bool :=
  match a, b with
  | update, update | less_than_8, less_than_8 | less_than_4, less_than_4 | less_than_2, less_than_2 | done, done => true
  | _, _ => false
  end.
Fixpoint afrom (l : alabel) (code : list ainstr) : option (list ainstr) :=
  match code with
  | [] => None
  | A_LABEL k :: t => if alabel_eqb k l then Some t else afrom l t
  | _ :: t => afrom l t
  end.
Section Arm64.
Variable sum : N.
Variable m : slice.
Definition aexec1 (i : ainstr) (r : aregs) : option aregs :=
  match i with
  | A_MOVWU_sum d => Some (aset r d sum)
  | A_MOVD_ptr d => Some (aset r d (sl_base m))
  | A_MOVD_len d => Some (aset r d (lenN (sl_bytes m)))
  | A_LOAD_P n a d =>
      match load m (ag r a) n with
      | Some v => Some (aset (aset r a ((ag r a + N.of_nat n) mod two64)%N) d v)
      | None => None end
  | A_MOVBU a d => match load m (ag r a) 1 with Some v => Some (aset r d v) | None => None end
  | A_CRC32 size s d => Some (aset r d (crc32_insn size (N.land (ag r d) (N.ones 32)) (N.land (ag r s) (N.ones (N.of_nat size)))))
  | A_SUB n d => Some (aset r d ((ag r d + (two64 - n)) mod two64)%N)
  | A_CMP n a => Some (ARegs (ag r) (ag r a, n) (aret r))
  | A_LABEL _ => Some r
  | A_MOVWU_ret s => Some (ARegs (ag r) (acmp r) (N.land (ag r s) (N.ones 32)))
  | A_BLT _ | A_JMP _ | A_TBZ _ _ _ | A_RET => None
  end.
Variable code : list ainstr.
Fixpoint arun (fuel : nat) (c : list ainstr) (r : aregs) : option N :=
  match fuel with
  | O => None
  | S f =>
    let jump l := match afrom l code with Some c' => arun f c' r | None => None end in
    match c with
    | [] => None
    | A_RET :: _ => Some (aret r)
    | A_BLT l :: t => if (sgn64 (fst (acmp r)) <? sgn64 (snd (acmp r)))%Z then jump l else arun f t r
    | A_JMP l :: t => jump l
    | A_TBZ b a l :: t => if N.testbit (ag r a) b then arun f t r else jump l
    | i :: t => match aexec1 i r with Some r' => arun f t r' | None => None end
    end
  end.
End Arm64.
(** crc32_arm64.s:10-48 ieeeUpdate *)
Definition arm_code : list ainstr :=
  [ A_MOVWU_sum R9; A_MOVD_ptr R13; A_MOVD_len R11; A_CMP 8 R11; A_BLT less_than_8;    (* lines 11-16 *)
    A_LABEL update; A_LOAD_P 8 R13 R10; A_CRC32 64 R10 R9; A_SUB 8 R11;                (* lines 18-21 *)
    A_CMP 8 R11; A_BLT less_than_8; A_JMP update;                                      (* lines 23-26 *)
    A_LABEL less_than_8; A_TBZ 2 R11 less_than_4; A_LOAD_P 4 R13 R10; A_CRC32 32 R10 R9;
    A_LABEL less_than_4; A_TBZ 1 R11 less_than_2; A_LOAD_P 2 R13 R10; A_CRC32 16 R10 R9;
    A_LABEL less_than_2; A_TBZ 0 R11 done; A_MOVBU R13 R10; A_CRC32 8 R10 R9;
    A_LABEL done; A_MOVWU_ret R9; A_RET ].                                             (* lines 28-48 *)
Definition arm_run (m : slice) (sum : N) (r0 : aregs) (fuel : nat) : option N :=
  arun sum m arm_code fuel arm_code r0.
