(** Model of main() of cmd/gzip (main.go:94-228): from the values getopt has put
    in the flag variables, the operands and the files, to the run of MCli.v.

    Simplifications: --cpu-profile and --mem-profile are not given, logging is
    not modelled; getopt is not modelled. *)
From Verif Require Import Base MToken MCommon MWriter MReader MSession SpecSession SpecReader MCli.

(** main.go:19-53: the flag variables.  [g_digits]: -0 ... -9 in that order. *)
Record cmdline := Cmdline {
  g_version : bool; g_stdout : bool; g_decompress : bool; g_force : bool; g_keep : bool;
  g_digits : list bool; g_format : format; g_strategy : strategy; g_clevel : Z; g_mlevel : N; g_wbits : N;
  g_dict : list N; g_name : list N; g_comment : list N; g_mtime : option Z; g_operands : list (list N) }.
(** Files by name; [None]: cannot be read. *)
Definition files := list N -> option (list N).

(** main.go:126-147: the first digit flag that is set *)
Fixpoint digit_level (ds : list bool) (k : Z) : option Z :=
  match ds with [] => None | true :: _ => Some k | false :: r => digit_level r (k + 1)%Z end.
Definition main_clevel (g : cmdline) : Z :=
  match digit_level (firstn 10 (g_digits g)) 0 with Some k => k | None => g_clevel g end.
(** main.go:149-151 *)
Definition main_stdout (g : cmdline) : bool :=
  g_stdout g || match g_operands g with [] => true | _ => false end.
(** main.go:153-166; [inr]: ioutil.ReadFile failed *)
Definition main_dict (fs : files) (g : cmdline) : option (list N) + unit :=
  match g_dict g with
  | [] => inl None
  | c :: name =>
    if (c =? 64)%N                                             (* '@' *)
    then match fs name with Some raw => inl (Some raw) | None => inr tt end
    else inl (Some (g_dict g))
  end.
(** main.go:168-170 is in cli_format *)
Definition main_flags (g : cmdline) (dict : option (list N)) : flags :=
  Flags (g_decompress g) (g_format g) (g_strategy g) (main_clevel g) (g_mlevel g) (g_wbits g) dict (g_name g) (g_comment g) (g_mtime g).
(** main.go:94-228.  [version]: what --version prints.  The files are not changed
    by any path through the function. *)
Definition main (wenv : wenv) (renv : renv) (version : list N) (g : cmdline) (fs : files) (stdin : source) (limit seen : option nat) : outcome :=
  if g_version g then Exit0 version
  else match main_dict fs g with
  | inr _ => Fatal []
  | inl dict =>
    if main_stdout g then
      if g_decompress g then cli_decompress renv (main_flags g dict) stdin limit seen
      else cli_compress wenv (main_flags g dict) stdin
    else Fatal []                                              (* 197-202: not implemented *)
  end.
