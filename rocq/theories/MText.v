(** Text forms: Checksum32 (checksum32.go) and the parsers of CompressLevel,
    MemoryLevel and WindowBits (enum_clevel.go, enum_mlevel.go, enum_wbits.go).
    Strings are lists of bytes.  The pieces of fmt, strconv, strings and
    encoding/json they use are modelled after Go's own sources. *)
From Coq Require Import String Ascii.
From Verif Require Import Base.

(** A Go string literal as bytes. *)
Fixpoint lit (s : String.string) : list N :=
  match s with
  | String.EmptyString => []
  | String.String c t => Ascii.N_of_ascii c :: lit t
  end.

Local Open Scope N_scope.

(** ** strconv.ParseUint (Go's strconv/atoi.go), for base 10 and base 16.
    The letters' values are those of Go's code ('a'..'z' after setting bit
    0x20); [None] stands for ErrSyntax and for ErrRange alike.
    Simplified: the multiplication cannot overflow 64 bits here because every
    accumulated value is at most [maxVal], which is less than 2^32. *)
Definition digit_val (c : N) : option N :=
  if (48 <=? c) && (c <=? 57) then Some (c - 48)
  else let l := N.lor c 0x20 in
       if (97 <=? l) && (l <=? 122) then Some (l - 97 + 10) else None.
Fixpoint parse_digits (base maxVal : N) (s : list N) (n : N) : option N :=
  match s with
  | [] => Some n
  | c :: t =>
      match digit_val c with
      | None => None
      | Some d => if base <=? d then None
                  else let n1 := n * base + d in
                       if maxVal <? n1 then None else parse_digits base maxVal t n1
      end
  end.
Definition parse_uint (s : list N) (base bitSize : N) : option N :=
  match s with [] => None | _ => parse_digits base (2 ^ bitSize - 1) s 0 end.

(** ** fmt's integer formatting (Go's fmt/format.go fmtInteger): digits are
    produced from the right, then zeros up to the precision. *)
Definition digit_char (d : N) : N := if d <? 10 then 48 + d else 97 + (d - 10).
Fixpoint digits_loop (fuel : nat) (base u : N) (acc : list N) : list N :=
  match fuel with
  | O => acc
  | S k => if u <? base then digit_char u :: acc
           else digits_loop k base (u / base) (digit_char (u mod base) :: acc)
  end.
Definition zero_pad (prec : nat) (s : list N) : list N := repeat 48 (prec - length s) ++ s.
Definition fmt_d (u : N) : list N := digits_loop 64 10 u [].                                    (* "%d" *)
Definition fmt_08x (u : N) : list N := lit "0x"%string ++ zero_pad 8 (digits_loop 64 16 u []).          (* "%#08x" *)

(** ** encoding/json of strings.  Simplified: only strings of printable ASCII
    characters that JSON does not escape are modelled ([plain]); [None] is an
    input outside the model or a JSON error. *)
Definition plain (c : N) : bool :=
  (0x20 <=? c) && (c <=? 0x7e) && negb (c =? 34) && negb (c =? 92) && negb (c =? 38) && negb (c =? 60) && negb (c =? 62).
Definition json_quote (s : list N) : list N := 34 :: s ++ [34].
Definition json_unquote (raw : list N) : option (list N) :=
  match raw with
  | 34 :: t => match rev t with
               | 34 :: u => if forallb plain u then Some (rev u) else None
               | _ => None
               end
  | _ => None
  end.

(** strings.TrimPrefix *)
Fixpoint trim_prefix (p s : list N) (whole : list N) : list N :=
  match p, s with
  | [], _ => s
  | x :: p', y :: s' => if x =? y then trim_prefix p' s' whole else whole
  | _ :: _, [] => whole
  end.

(** checksum32.go:21-44 *)
Definition csum_String (v : N) : list N := fmt_08x v.
Definition csum_MarshalJSON (v : N) : list N := json_quote (csum_String v).
Definition csum_UnmarshalJSON (raw : list N) : option N :=
  match json_unquote raw with
  | None => None
  | Some str => parse_uint (trim_prefix (lit "0x"%string) str str) 16 32
  end.

(** strings.EqualFold against a literal.  Simplified to ASCII case folding: of
    the letters of "default" and "none" none has a non-ASCII case variant (only
    k and s do). *)
Definition lower (c : N) : N := if (65 <=? c) && (c <=? 90) then c + 32 else c.
Fixpoint equal_fold (s t : list N) : bool :=
  match s, t with
  | [], [] => true
  | x :: s', y :: t' => (lower x =? lower y) && equal_fold s' t'
  | _, _ => false
  end.

Local Open Scope Z_scope.

(** ** CompressLevel (an int8): enum_clevel.go:34-36, 47-55, 63-84.  Parse
    returns the value stored and whether the error is nil. *)
Definition clevel_IsValid (c : Z) : bool := (-1 <=? c) && (c <=? 9).
Definition clevel_String (c : Z) : list N :=
  if c <? 0 then lit "default"%string else if c =? 0 then lit "none"%string else fmt_d (Z.to_N c).
Definition clevel_Parse (str : list N) : Z * bool :=
  if equal_fold str (lit "default"%string) then (-1, true)
  else if equal_fold str (lit "none"%string) then (0, true)
  else match parse_uint str 10 8 with
       | None => (-1, false)
       | Some u => if (9 <? u)%N then (-1, false) else (Z.of_N u, true)
       end.

Local Open Scope N_scope.

(** ** MemoryLevel (a byte): enum_mlevel.go:31-33, 44-49, 57-74. *)
Definition mlevel_IsValid (m : N) : bool := (0 <=? m) && (m <=? 9).
Definition mlevel_String (m : N) : list N := if m =? 0 then lit "default"%string else fmt_d m.
Definition mlevel_Parse (str : list N) : N * bool :=
  if equal_fold str (lit "default"%string) then (0, true)
  else match parse_uint str 10 8 with
       | None => (0, false)
       | Some u => if 9 <? u then (0, false) else (u, true)
       end.

(** ** WindowBits (a byte): enum_wbits.go:33-35, 46-51, 59-81. *)
Definition wbits_IsValid (w : N) : bool := (w =? 0) || ((8 <=? w) && (w <=? 15)).
Definition wbits_String (w : N) : list N := if w <? 8 then lit "default"%string else fmt_d w.
Definition wbits_Parse (str : list N) : N * bool :=
  if equal_fold str (lit "default"%string) then (0, true)
  else match parse_uint str 10 8 with
       | None => (0, false)
       | Some u => if u <? 8 then (0, false) else if 15 <? u then (0, false) else (u, true)
       end.
