(** Slices passed to a Writer and changed by the caller afterwards.
    Everywhere else in the model slices are values.  Here the caller's memory is
    explicit.  A Writer keeps the slices of the Header given to SetHeader
    (writer.go:297, a shallow copy) and reads them when it writes the header
    (writer.go:749-762, 707); WithDictionary copies the dictionary
    (options.go:100-108); Write has copied its argument into the input buffer when
    it returns (writer.go:379; buffer.LZ77.Write).  Simplifications: a slice is a
    whole array; strings cannot be changed in Go. *)
From Verif Require Import Base MToken MCommon MWriter SpecSession MSession.

(** The caller's byte arrays, and arrays of ExtraDataRecords (header.go:21-30),
    each with the array of its bytes. *)
Record mem := Mem { bytes_at : nat -> list N; recs_at : nat -> list (N * N * nat) }.
Definition poke {A} (f : nat -> A) (a : nat) (x : A) : nat -> A := fun b => if Nat.eqb b a then x else f b.
Definition records (m : mem) (a : nat) : list xrecord := map (fun '(i, j, b) => XRecord i j (bytes_at m b)) (recs_at m a).
Definition with_extra (h : header) (x : list xrecord) : header :=
  match h with Header a b c d e _ g k => Header a b c d e x g k end.
(** The header the caller passes: [h] with its records in array [a]. *)
Definition header_of (m : mem) (h : header) (a : nat) : header := with_extra h (records m a).

Inductive act :=
| AWrite (b : nat)                        (* Write(buf) *)
| AFlush (ft : flushtype)
| ASetHeader (h : header) (a : nat)       (* SetHeader(header) *)
| APoke (b : nat) (p : list N)            (* the caller changes a byte array *)
| ARecs (a : nat) (r : list (N * N * nat)).   (* ... or an array of records *)
(** The memory, the Writer, and the array of records it still refers to. *)
Record ast := Ast { a_mem : mem; a_w : writer; a_held : option nat }.
(** what the Writer finds when it looks at its header *)
Definition look (s : ast) : writer :=
  match a_held s with None => a_w s | Some a => set_hdr (a_w s) (header_of (a_mem s) (w_hdr (a_w s)) a) end.
(** (a change of length is not something a Go program can do to an array: NoFuel) *)
Definition a_step (env : wenv) (s : ast) (x : act) : res (ast * option goerr) :=
  let m := a_mem s in
  match x with
  | AWrite b => let* (w, e) := w_step env (look s) (OWrite (bytes_at m b)) in Ok (Ast m w (a_held s), e)
  | AFlush ft => let* (w, e) := w_step env (look s) (OFlush ft) in Ok (Ast m w (a_held s), e)
  | ASetHeader h a =>
      let '(w, ok) := w_SetHeader (look s) (header_of m h a) in
      Ok (Ast m w (if ok then Some a else a_held s), None)
  | APoke b p => if Nat.eqb (length p) (length (bytes_at m b)) then Ok (Ast (Mem (poke (bytes_at m) b p) (recs_at m)) (a_w s) (a_held s), None) else NoFuel
  | ARecs a r => if Nat.eqb (length r) (length (recs_at m a)) then Ok (Ast (Mem (bytes_at m) (poke (recs_at m) a r)) (a_w s) (a_held s), None) else NoFuel
  end.
Fixpoint a_run (env : wenv) (s : ast) (l : list act) : res (ast * option goerr) :=
  match l with
  | [] => Ok (s, None)
  | x :: r => let* (s', e) := a_step env s x in match e with Some y => Ok (s', Some y) | None => a_run env s' r end
  end.
(** ... and then Close. *)
Definition a_session (env : wenv) (s : ast) (l : list act) : res (writer * option goerr) :=
  let* (s', e) := a_run env s l in
  match e with Some y => Ok (a_w s', Some y) | None => w_Close env (look s') end.
(** options.go:100-108: WithDictionary called with the array [d], which the caller may change later *)
Definition with_dictionary (m : mem) (d : nat) : opt := WithDictionary (Some (bytes_at m d)).
