(** A client calling the methods of a Writer one after the other. *)
From Verif Require Import Base MToken MCommon MWriter SpecSession.

(** One call; the result is the error it returns.  (SetHeader's own error does
    not change the Writer and is not reported here.) *)
Definition w_step (env : wenv) (w : writer) (op : wop) : res (writer * option goerr) :=
  match op with
  | OWrite p => let* (w', (_, e)) := w_Write env w p in Ok (w', e)
  | OFlush ft => w_Flush env w ft
  | OSetHeader h => Ok (fst (w_SetHeader w h), None)
  end.
(** Calls until the first error. *)
Fixpoint w_run (env : wenv) (w : writer) (ops : list wop) : res (writer * option goerr) :=
  match ops with
  | [] => Ok (w, None)
  | op :: r =>
    let* (w', e) := w_step env w op in
    match e with Some x => Ok (w', Some x) | None => w_run env w' r end
  end.
(** ... and then Close. *)
Definition w_session (env : wenv) (w : writer) (ops : list wop) : res (writer * option goerr) :=
  let* (w', e) := w_run env w ops in
  match e with Some x => Ok (w', Some x) | None => w_Close env w' end.

(** Values Go's types guarantee: bytes are below 256. *)
Definition header_bytes (h : header) : Prop :=
  bytes_ok (h_name h) /\ bytes_ok (h_comment h) /\
  Forall (fun r => is_byte (x_id0 r) /\ is_byte (x_id1 r) /\ bytes_ok (x_bytes r)) (h_extra h).
Definition op_ok (op : wop) : Prop :=
  match op with OWrite p => bytes_ok p | OFlush _ => True | OSetHeader h => header_bytes h end.
