(** The Reader of MConc.v with its accessors and with tracers that use it.
    - Format, MemoryLevel, WindowBits, Dict, Tracers (reader.go:138-184) lock mu1,
      copy a field and unlock mu1: one step, taken when mu1 is free;
    - the goroutine sends its events (reader.go:1385-1395) while it holds mu1; a
      tracer may call an accessor of the Reader (or Read, Close, Reset, which lock
      mu1 first as well) and returns when that call does. *)
From Verif Require Import Base MCommon MReader MConc.

Inductive apc := ALock | ADone.                 (* waits for mu1; has returned *)
Record rst := RSt { core : st; asks : list apc; in_tracer : bool }.

Section Cap.
Variable ocap : N.
(** Whose step it is: a caller or a finished goroutine; the decompression goroutine;
    its tracer; a caller of an accessor; or somebody makes a call, of Reset or another. *)
Inductive mover := MCaller | MGoroutine | MTracer | MAccessor | MCall | MReset.
Inductive rstep (s : rst) : mover -> rst -> Prop :=
| RsClient i k j c : cstep (core s) i k j = Some c -> rstep s MCaller (RSt c (asks s) (in_tracer s))
| RsDone c : sched ocap (core s) GoDone = Some c -> rstep s MCaller (RSt c (asks s) (in_tracer s))
| RsThread k j c : in_tracer s = false -> tstep ocap (core s) k j = Some c -> rstep s MGoroutine (RSt c (asks s) false)
(* an event is sent: reader.go:1392, from the decoding code *)
| RsEvent : thr (core s) = Some TRun -> in_tracer s = false -> rstep s MTracer (RSt (core s) (asks s) true)
(* the call the tracer has made returns *)
| RsBack : in_tracer s = true -> mu1 (core s) = false -> rstep s MTracer (RSt (core s) (asks s) false)
| RsAsk i : nth_error (asks s) i = Some ALock -> mu1 (core s) = false -> rstep s MAccessor (RSt (core s) (upd (asks s) i ADone) (in_tracer s))
| RsNewAsk : rstep s MCall (RSt (core s) (asks s ++ [ALock]) (in_tracer s))
| RsNewCall c : reads_and_closes c -> rstep s MCall (RSt (add_call (core s) c) (asks s) (in_tracer s))
| RsNewReset new : rstep s MReset (RSt (add_call (core s) (ZLock1 new)) (asks s) (in_tracer s)).

Inductive rruns (may : mover -> Prop) : rst -> rst -> Prop :=
| rr_refl s : rruns may s s
| rr_cons s1 m s2 s3 : may m -> rstep s1 m s2 -> rruns may s2 s3 -> rruns may s1 s3.
End Cap.
Definition rfresh (pr : list outact) : rst := RSt (fresh pr) [] false.
(** Anybody may move ... *)
Definition anybody (m : mover) : Prop := True.
(** ... anybody but tracers that call back ... *)
Definition quiet_tracers (m : mover) : Prop := m <> MTracer.
(** ... nor is Reset called ... *)
Definition no_resets (m : mover) : Prop := m <> MTracer /\ m <> MReset.
(** ... the calls in progress, and the goroutine ... *)
Definition in_progress (m : mover) : Prop := m = MCaller \/ m = MGoroutine \/ m = MAccessor.
(** ... anybody but the goroutine, which is inside a Read of the underlying reader. *)
Definition goroutine_waits (m : mover) : Prop := m <> MGoroutine /\ m <> MTracer.
