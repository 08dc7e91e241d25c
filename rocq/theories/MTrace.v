(** Model of trace.go's Tracers: every event of a Reader or Writer is passed to
    the OnEvent method of each registered Tracer, in order (sendEvent).  A Tracer
    with state is a function from its state and an event to its new state.
    Log (zerolog) is not modelled. *)
From Verif Require Import Base MCommon.

(** trace.go:60-62 NoOpTracer.OnEvent *)
Definition noop_OnEvent {S : Type} (s : S) (e : event) : S := s.
(** trace.go:73-75 TracerFunc.OnEvent *)
Definition func_OnEvent {S : Type} (f : S -> event -> S) (s : S) (e : event) : S := f s e.
(** trace.go:94-98 captureHeaderTracer.OnEvent; the state is the pointed-to Header *)
Definition capture_OnEvent (h : header) (e : event) : header :=
  match e_type e with
  | StreamHeaderEvent => match e_header e with Some h' => h' | None => h end
  | _ => h
  end.
(** What a Tracer has become after a run with the events [evs]. *)
Definition traced {S : Type} (OnEvent : S -> event -> S) (s : S) (evs : list event) : S := fold_left OnEvent evs s.
