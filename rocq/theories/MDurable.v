(** The calls a Writer makes on the object it writes to (Write, and Flush and
    Sync where it has them), in their order, and what of the object's content
    survives a power failure. *)
From Verif Require Import Base MToken MCommon MWriter SpecSession MSession.

(** ** The object written to *)
(** Simplification: adjacent Writes are logged as one.  [r] is the error
    returned. *)
Inductive ucall :=
| UWrite (p : list N)
| UFlush (r : option goerr)
| USync (r : option goerr).
(** Flush moves the bytes out of the object (a bufio.Writer over a file, say),
    Sync onto the disk; a failed call cannot be relied on. *)
Record disk := Disk { d_written : list N; d_flushed : list N; d_synced : list N }.
Definition disk0 : disk := Disk [] [] [].
Definition ustep (d : disk) (c : ucall) : disk :=
  match c with
  | UWrite p => Disk (d_written d ++ p) (d_flushed d) (d_synced d)
  | UFlush None => Disk (d_written d) (d_written d) (d_synced d)
  | USync None => Disk (d_written d) (d_flushed d) (d_flushed d)
  | _ => d
  end.
Definition disk_after (log : list ucall) : disk := fold_left ustep log disk0.
(** What is found after a power failure: everything that was synced, and
    possibly more of what was written. *)
Definition survives (log : list ucall) (b : list N) : Prop :=
  (exists x, b = d_synced (disk_after log) ++ x) /\ (exists y, d_written (disk_after log) = b ++ y).

(** ** The calls made by the methods of the Writer *)
Section Log.
Variable env : wenv.
(** bytes handed over between two states *)
Definition handed (w w' : writer) : list N := skipn (length (sink (w_out w))) (sink (w_out w')).
(** writer.go:476-501, the part of flushImpl that writes *)
Definition deliver (w : writer) (ft : flushtype) : res (writer * bool) :=
  let? w := compressImpl env w true in
  let? w := (if is_finish ft then
               match w_state w with
               | noStream => let? w := writeHeader env w in Ok (w_setstate w openStream, true)
               | _ => Ok (w, true) end
             else Ok (w, true)) in
  let? w := (match w_state w with openStream => flushGuts env w ft | _ => Ok (w, true) end) in
  match w_state w with
  | closingStream => let? w := writeFooter env w in Ok (w_setstate w closedStream, true)
  | _ => Ok (w, true) end.
(** writer.go:475-520 flushImpl, with Flush and Sync of the object at its end (503-517) *)
Definition flush_log (w : writer) (ft : flushtype) : list ucall :=
  match deliver w ft with
  | Ok (w4, true) =>
    let fl := e_flushw env (w_flushes w4) in
    [UWrite (handed w w4); UFlush fl] ++ match fl with None => [USync (e_syncw env (w_syncs w4))] | Some _ => [] end
  | Ok (w4, false) => [UWrite (handed w w4)]
  | _ => []                                    (* after a panic nothing is logged *)
  end.
(** writer.go:366-449 Write, Flush, Close *)
Definition step_log (w : writer) (op : wop) : list ucall :=
  match op with
  | OWrite p => match w_Write env w p with Ok (w', _) => [UWrite (handed w w')] | _ => [] end
  | OFlush ft => match w_state w with closedState | errorState => [] | _ => flush_log w ft end
  | OSetHeader _ => []
  end.
Fixpoint run_log (w : writer) (ops : list wop) : list ucall :=
  match ops with
  | [] => []
  | op :: r => step_log w op ++ match w_step env w op with Ok (w', None) => run_log w' r | _ => [] end
  end.
Definition close_log (w : writer) : list ucall :=
  match w_state w with closedState | errorState => [] | _ => flush_log w FinishFlush end.
Definition session_log (w : writer) (ops : list wop) : list ucall :=
  run_log w ops ++ match w_run env w ops with Ok (w', None) => close_log w' | _ => [] end.
End Log.
