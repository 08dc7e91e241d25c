(** Independent specification of the counters carried by trace events (C82). *)
From Verif Require Import Base MCommon.

(** What is known before an event: the number of streams begun so far, and the totals reported when the
    latest one began. *)
Definition marks : Type := N * N * N.
Definition mark (s : marks) (e : event) : marks :=
  let '(n, i, o) := s in
  match e_type e with
  | StreamBeginEvent => ((n + 1)%N, e_inTotal e, e_outTotal e)
  | _ => s
  end.
(** A 64-bit counter [s] counts what the 64-bit counter [t] counted since it was [a]. *)
Definition since (a t s : N) : Prop := t = ((a + s) mod two64)%N /\ (s < two64)%N.
(** An event is truthful: its stream number is the number of StreamBegin events so far (itself included), and
    its counters of the stream are the totals minus the totals at the beginning of the stream (64-bit counters). *)
Definition fits (s : marks) (e : event) : Prop :=
  let '(n, i, o) := mark s e in
  e_numStreams e = n /\ since i (e_inTotal e) (e_inStream e) /\ since o (e_outTotal e) (e_outStream e).
Fixpoint Counters (s : marks) (evs : list event) : Prop :=
  match evs with
  | [] => True
  | e :: r => fits s e /\ Counters (mark s e) r
  end.
