(** A client calling all methods of a Writer, also after errors, and keeping
    what every call returned. *)
From Verif Require Import Base MToken MCommon MWriter SpecEvents.

Inductive call :=
| KWrite (p : list N) | KFlush (ft : flushtype) | KSetHeader (h : header) | KClose | KReset (opts : list opt).
Inductive reply :=
| RWrite (n : N) (e : option goerr)     (* Write: count and error *)
| RError (e : option goerr)             (* Flush, Close *)
| RHeader (ok : bool)                   (* SetHeader: nil or not *)
| RReset.
(** writer.go:224, 286, 366, 396, 424: one call *)
Definition w_call (env : wenv) (w : writer) (c : call) : res (writer * reply) :=
  match c with
  | KWrite p => let* (w', (n, e)) := w_Write env w p in Ok (w', RWrite n e)
  | KFlush ft => let* (w', e) := w_Flush env w ft in Ok (w', RError e)
  | KSetHeader h => let '(w', ok) := w_SetHeader w h in Ok (w', RHeader ok)
  | KClose => let* (w', e) := w_Close env w in Ok (w', RError e)
  | KReset opts => let* w' := w_Reset w opts in Ok (w', RReset)
  end.
Fixpoint w_calls (env : wenv) (w : writer) (cs : list call) : res (writer * list reply) :=
  match cs with
  | [] => Ok (w, [])
  | c :: r => let* (w', x) := w_call env w c in let* (w'', xs) := w_calls env w' r in Ok (w'', x :: xs)
  end.
(** the options given to the Reset calls *)
Definition given (cs : list call) : list opt := flat_map (fun c => match c with KReset o => o | _ => [] end) cs.
Definition no_reset (cs : list call) : Prop := Forall (fun c => match c with KReset _ => False | _ => True end) cs.

(** The environment as a Writer sees it that is created after the libraries have
    been called a times and the underlying writers' Write, Flush and Sync
    methods b, c and d times. *)
Definition shift_env (env : wenv) (a b c d : nat) : wenv :=
  WEnv (bytesPerBlock env) (fun n => e_match env (n + a)) (fun n => e_peek env (n + a)) (e_huff env)
       (fun n => e_sink env (n + b)) (fun n => e_flushw env (n + c)) (fun n => e_syncw env (n + d)).
(** ... created now, [w] having lived so far. *)
Definition from_now (env : wenv) (w : writer) : wenv :=
  shift_env env (lz_calls (w_lz w)) (sinkCalls (w_out w)) (w_flushes w) (w_syncs w).

(** Nobody can tell the two Writers apart by calling methods allowed by [ok]:
    same replies or panics, same bytes at the underlying writer, same events
    (apart from the running totals). *)
Definition like (ok : list call -> Prop) (env1 : wenv) (w1 : writer) (env2 : wenv) (w2 : writer) : Prop :=
  forall cs, ok cs ->
  match w_calls env1 w1 cs, w_calls env2 w2 cs with
  | Ok (x, r1), Ok (y, r2) => r1 = r2 /\ sink (w_out x) = sink (w_out y) /\
      exists evs, map pre_of (w_events x) = map pre_of (w_events w1) ++ evs /\ map pre_of (w_events y) = map pre_of (w_events w2) ++ evs
  | Panic p, Panic q => p = q
  | NoFuel, NoFuel => True
  | _, _ => False
  end.
