(** Model of the command-line tool cmd/gzip: standard input to standard output
    (all other modes are "not implemented", main.go:197-202).

    Simplifications: getopt's parsing, logging and profiling are not modelled: a
    run starts from the values of the flags.  log.Fatal ends the process with a
    non-zero status and without writing anything more to standard output.
    Standard output, when decompressing, accepts all bytes or fails after some
    number of them.  When the Reader ends with an error other than io.EOF, the
    error may overtake the last data (C43), so that only some prefix is written.
    The Reader's goroutine delivers its data in order (C39) and
    its Close returns nil (reader.go:292-297). *)
From Verif Require Import Base MToken MCommon MWriter MReader MSession SpecSession SpecReader.

(** main.go:19-53, and -0 ... -9 (main.go:126-147) already applied.  [f_dict]:
    contents of --dictionary (None: not given, or given empty; main.go:153-166). *)
Record flags := Flags {
  f_decompress : bool; f_format : format; f_strategy : strategy; f_clevel : Z; f_mlevel : N; f_wbits : N;
  f_dict : option (list N); f_name : list N; f_comment : list N; f_mtime : option Z }.
(** How the process ends, and what it has written to standard output. *)
Inductive outcome := Exit0 (out : list N) | Fatal (out : list N) | Crash (p : panic).

(** main.go:168-170 *)
Definition cli_format (fl : flags) : format :=
  match f_format fl with
  | DefaultFormat => if f_decompress fl then DefaultFormat else GZIPFormat
  | f => f
  end.
(** main.go:233-243 *)
Definition cli_opts (fl : flags) : list opt :=
  [ WithTracers 1; WithFormat (cli_format fl); WithStrategy (f_strategy fl); WithCompressLevel (f_clevel fl);
    WithMemoryLevel (f_mlevel fl); WithWindowBits (f_wbits fl) ] ++
  match f_dict fl with Some d => [WithDictionary (Some d)] | None => [] end.
(** main.go:265-269 *)
Definition cli_header (fl : flags) : header :=
  Header (f_name fl) (f_comment fl) (f_mtime fl) UnknownData OSTypeUnknown [] 0 0.

(** io.Copy(fw, r): writes what each Read delivered, also when it came with an
    error; any count other than the length of the data is an error. *)
Fixpoint copy_in (env : wenv) (w : writer) (src : source) : res (writer * option goerr) :=
  match src with
  | [] => Ok (w, None)
  | (p, e) :: r =>
    let after (w : writer) :=
      match e with None => copy_in env w r | Some EOF => Ok (w, None) | Some x => Ok (w, Some x) end in
    match p with
    | [] => after w
    | _ => let* (w', (nn, we)) := w_Write env w p in
           match we with
           | Some x => Ok (w', Some x)
           | None => if (nn =? lenN p)%N then after w' else Ok (w', Some (IOErr 0) (* io.ErrShortWrite *))
           end
    end
  end.
Definition ends (x : res outcome) : outcome := match x with Ok o => o | Panic p => Crash p | NoFuel => Crash PAssert end.
Definition stdout_of (w : writer) : list N := sink (w_out w).
(** main.go:262-296 *)
Definition cli_compress (env : wenv) (fl : flags) (stdin : source) : outcome :=
  if forallb opt_valid (cli_opts fl) then
    ends (let w := newWriter (cli_opts fl) in
          let '(w, ok) := w_SetHeader w (cli_header fl) in
          if ok then
            let* (w, e) := copy_in env w stdin in
            match e with
            | Some _ => Ok (Fatal (stdout_of w))
            | None =>
              let* (w, e) := w_Flush env w FinishFlush in
              match e with
              | Some _ => Ok (Fatal (stdout_of w))
              | None =>
                let* (w, e) := w_Close env w in
                Ok (match e with Some _ => Fatal (stdout_of w) | None => Exit0 (stdout_of w) end)
              end
            end
          else Ok (Fatal (stdout_of w)))
  else Crash PAssert.      (* the assertions of options.go:61-125 *)
(** main.go:245-261; [limit]: standard output fails after so many bytes; [seen]:
    how much was read before an error other than io.EOF was. *)
Definition cut_at (n : option nat) (d : list N) : list N := match n with Some n => firstn n d | None => d end.
Definition cli_decompress (env : renv) (fl : flags) (stdin : source) (limit seen : option nat) : outcome :=
  if forallb opt_valid (cli_opts fl) then
    ends (let* r := readThread env (newReader stdin (cli_opts fl)) in
          let '(d, e) := r_result r in
          Ok (match e with
              | Some EOF => if length (cut_at limit d) =? length d then Exit0 (cut_at limit d) else Fatal (cut_at limit d)
              | _ => Fatal (cut_at limit (cut_at seen d))
              end))
  else Crash PAssert.
