(** Model of internal/adler32 and internal/crc32. *)
From Verif Require Import Base.

(** ** internal/adler32/adler32.go *)
Definition adler_modulus : N := 65521.                   (* adler32.go:10 *)
Definition adler_nmax : nat := N.to_nat 5552.            (* adler32.go:12 *)

Definition add32 (a b : N) : N := ((a + b) mod two32)%N. (* uint32 addition *)

(** adler32.go:23-34 (unrolled loop) followed by 35-38 (tail loop). *)
Fixpoint adler_tail (p : list N) (s1 s2 : N) : N * N :=
  match p with
  | [] => (s1, s2)
  | ch :: t => let s1 := add32 s1 ch in adler_tail t s1 (add32 s2 s1)
  end.

Fixpoint adler_chunk (p : list N) (s1 s2 : N) : N * N :=
  match p with
  | p0 :: p1 :: p2 :: p3 :: t =>
      let s1 := add32 s1 p0 in let s2 := add32 s2 s1 in
      let s1 := add32 s1 p1 in let s2 := add32 s2 s1 in
      let s1 := add32 s1 p2 in let s2 := add32 s2 s1 in
      let s1 := add32 s1 p3 in let s2 := add32 s2 s1 in
      adler_chunk t s1 s2
  | _ => adler_tail p s1 s2
  end.

(** adler32.go:17-43, the outer loop; fuel is the number of remaining bytes. *)
Fixpoint adler_loop (fuel : nat) (p : list N) (s1 s2 : N) : N * N :=
  match p, fuel with
  | [], _ => (s1, s2)
  | _, O => (s1, s2) (* unreachable: each round consumes at least one byte *)
  | _, S f =>
      let '(s1, s2) := adler_chunk (firstn adler_nmax p) s1 s2 in
      adler_loop f (skipn adler_nmax p) (s1 mod adler_modulus) (s2 mod adler_modulus)
  end%N.

(** adler32.go:14-45 Update *)
Definition adler_update (sum : N) (p : list N) : N :=
  let '(s1, s2) := adler_loop (length p) p (N.land sum 0xffff) (N.shiftr sum 16) in
  N.lor (N.shiftl s2 16 mod two32) s1.

Definition adler_reset : N := 1.                          (* adler32.go:65-67 *)
Definition adler_checksum (p : list N) : N := adler_update adler_reset p. (* adler32.go:47-52 *)

(** ** internal/crc32/crc32.go *)
Definition ieeePolynomial : N := 0xedb88320.             (* crc32.go:11 *)

(** crc32.go:26-30, one round of the table initialisation *)
Definition crc_round (sum : N) : N :=
  if N.eqb (N.land sum 1) 1 then N.lxor (N.shiftr sum 1) ieeePolynomial else N.shiftr sum 1.

(** crc32.go:23-33: ieee[0] *)
Definition ieee0 : list N :=
  map (fun i => Nat.iter 8 crc_round (N.of_nat i)) (seq 0 256).

Definition tbl (t : list N) (i : N) : N := nth (N.to_nat i) t 0%N.

(** crc32.go:34-40: ieee[j] from ieee[j-1] *)
Definition ieee_next (t : list N) : list N :=
  map (fun sum => N.lxor (tbl ieee0 (N.land sum 0xff)) (N.shiftr sum 8)) t.

Definition ieee1 := ieee_next ieee0.
Definition ieee2 := ieee_next ieee1.
Definition ieee3 := ieee_next ieee2.
Definition ieee4 := ieee_next ieee3.
Definition ieee5 := ieee_next ieee4.
Definition ieee6 := ieee_next ieee5.
Definition ieee7 := ieee_next ieee6.

(** crc32.go:74-76, the byte loop *)
Definition crc_byte (sum ch : N) : N :=
  N.lxor (tbl ieee0 (N.lxor (N.land sum 0xff) ch)) (N.shiftr sum 8).

(** crc32.go:60-72, slicing by 8, then 74-76 *)
Fixpoint crc_slice8 (p : list N) (sum : N) : N :=
  match p with
  | p0 :: p1 :: p2 :: p3 :: p4 :: p5 :: p6 :: p7 :: t =>
      let sum := N.lxor sum (unle32 [p0; p1; p2; p3]) in
      crc_slice8 t
        (N.lxor (tbl ieee0 p7) (N.lxor (tbl ieee1 p6) (N.lxor (tbl ieee2 p5) (N.lxor (tbl ieee3 p4)
        (N.lxor (tbl ieee4 (N.shiftr sum 24))
        (N.lxor (tbl ieee5 (N.land (N.shiftr sum 16) 0xff))
        (N.lxor (tbl ieee6 (N.land (N.shiftr sum 8) 0xff))
                (tbl ieee7 (N.land sum 0xff)))))))))
  | _ => fold_left crc_byte p sum
  end.

Definition not32 (x : N) : N := N.lxor x 0xffffffff.     (* ^x on uint32 *)

(** crc32.go:53-79 genericUpdate *)
Definition crc_update (sum : N) (p : list N) : N :=
  match p with
  | [] => sum
  | _ =>
    let sum := not32 sum in
    let sum := if Nat.leb 16 (length p) then crc_slice8 p sum else fold_left crc_byte p sum in
    not32 sum
  end.

Definition crc_reset : N := 0.                            (* crc32.go:92-94 *)

(** crc32_amd64.go:16-26; [clmul] stands for the assembly kernel ieeeCLMUL. *)
Definition arch_update_amd64 (clmul : N -> list N -> N) (sum : N) (p : list N) : N :=
  let length := length p in
  if Nat.leb 64 length then
    let left := Nat.modulo length 16 in           (* length & 0xf *)
    let n := length - left in
    crc_update (not32 (clmul (not32 sum) (firstn n p))) (skipn n p)
  else crc_update sum p.

(** crc32_arm64.go:16-18; [kernel] stands for the assembly kernel ieeeUpdate. *)
Definition arch_update_arm64 (kernel : N -> list N -> N) (sum : N) (p : list N) : N :=
  not32 (kernel (not32 sum) p).

(** crc32_generic.go:9-11 *)
Definition arch_update_generic (sum : N) (p : list N) : N := crc_update sum p.
