(** Independent specification of the two checksums. *)
From Verif Require Import Base.

(** Adler-32, RFC 1950 section 8.2: s1 is 1 plus the sum of all bytes, s2 the
    sum of all successive s1 values, both modulo 65521.  Unbounded integers. *)
Fixpoint adler_sums (l : list N) (s1 s2 : N) : N * N :=
  match l with
  | [] => (s1, s2)
  | x :: t => adler_sums t (s1 + x) (s2 + (s1 + x))
  end%N.

Definition spec_adler32 (l : list N) : N :=
  let '(s1, s2) := adler_sums l 1 0 in ((s2 mod 65521) * 65536 + s1 mod 65521)%N.

(** CRC-32 (IEEE 802.3, reflected), as a shift register fed one message bit at
    a time, least significant bit of each byte first (RFC 1952 section 8:
    pre- and post-conditioned with ones). *)
Definition crc_poly : N := 0xedb88320.

Definition crc_bit (r : N) (b : bool) : N :=
  if xorb (N.odd r) b then N.lxor (N.div2 r) crc_poly else N.div2 r.

Definition ones32 : N := 0xffffffff.

Definition spec_crc32 (l : list N) : N :=
  N.lxor (fold_left crc_bit (bits_of_bytes l) ones32) ones32.

Example adler_wikipedia : spec_adler32 [87;105;107;105;112;101;100;105;97]%N = 0x11E60398%N.
Proof. vm_compute. reflexivity. Qed.
Example crc_check : spec_crc32 [49;50;51;52;53;54;55;56;57]%N = 0xcbf43926%N.
Proof. vm_compute. reflexivity. Qed.
