(** A Writer whose methods are called from several goroutines.
    Every method takes the Writer's only mutex, reads and writes the fields, and
    releases the mutex (writer.go:142-219, 224-281, 286-307, 366-451).  Between
    taking and releasing it a call is not one step: it loads the fields, and stores
    them later, so a method that did not take the mutex would lose updates.
    Simplifications: the fields are loaded together and stored together; a panic
    (only a failed assertion can cause one) ends the program. *)
From Verif Require Import Base MToken MCommon MWriter MCalls.

(** ** The accessors *)
Inductive getter := GFormat | GStrategy | GCompressLevel | GMemoryLevel | GWindowBits | GDict | GTracers.
Inductive value := VFormat (f : format) | VStrategy (s : strategy) | VLevel (l : Z) | VNumber (n : N) | VDict (d : option (list N)) | VTracers (n : nat).
(** writer.go:142-211 *)
Definition w_get (w : writer) (g : getter) : value :=
  let o := w_opt w in
  match g with
  | GFormat => VFormat (o_format o) | GStrategy => VStrategy (o_strategy o) | GCompressLevel => VLevel (o_clevel o)
  | GMemoryLevel => VNumber (o_mlevel o) | GWindowBits => VNumber (o_wbits o)
  | GDict => VDict (o_dict o) | GTracers => VTracers (o_tracers o)
  end.
Inductive wcall := WDo (c : call) | WGet (g : getter).
Inductive wreply := WR (r : reply) | WV (v : value).
(** One call, with nobody else calling. *)
Definition alone (env : wenv) (w : writer) (c : wcall) : res (writer * wreply) :=
  match c with
  | WDo c => let* (w', r) := w_call env w c in Ok (w', WR r)
  | WGet g => Ok (w, WV (w_get w g))
  end.
(** Calls made one after the other. *)
Fixpoint one_by_one (env : wenv) (w : writer) (cs : list wcall) : res (writer * list wreply) :=
  match cs with
  | [] => Ok (w, [])
  | c :: r => let* (w', x) := alone env w c in let* (w'', xs) := one_by_one env w' r in Ok (w'', x :: xs)
  end.

(** ** Goroutines *)
(** Where a call is. *)
Inductive wpc :=
| WStart (c : wcall)                     (* called *)
| WLocked (c : wcall)                    (* has taken fw.mu *)
| WTracer (c : wcall)                    (* a tracer, called from here, has called a method of the same Writer: waits for fw.mu *)
| WBody (c : wcall) (w : writer)         (* has read the fields *)
| WStored (r : wreply)                   (* has written them *)
| WUnlocked (r : wreply)                 (* has released fw.mu *)
| WDone (r : wreply).                    (* has returned *)
(** What can be seen from outside: call number i was made, has returned. *)
Inductive wseen := Called (i : nat) (c : wcall) | Returned (i : nat) (r : wreply).
Record wst := WSt { wmu : bool; wsh : writer; wpcs : list wpc; wtrace : list wseen; wdead : option (nat * panic) }.
Definition wfresh (w : writer) : wst := WSt false w [] [] None.

Fixpoint wupd (l : list wpc) (i : nat) (x : wpc) : list wpc :=
  match l, i with [], _ => [] | _ :: r, O => x :: r | a :: r, S i => a :: wupd r i x end.
(** writer.go:286-293, 302: an invalid header is rejected before fw.mu is taken *)
Definition rejected (c : wcall) : bool :=
  match c with
  | WDo (KSetHeader h) => negb (Nat.eqb (checkHeaderFileName h + checkHeaderComment h + checkHeaderLastModified h + checkHeaderOSType h + checkHeaderExtraData h) 0)
  | _ => false
  end.
Section Tracers.
(** Whether a tracer of the Writer calls one of its methods when it is sent an
    event in the course of the call (writer.go:915-925: with fw.mu held). *)
Variable reentrant : writer -> wcall -> bool.
Variable env : wenv.
Definition wstep (s : wst) (i : nat) : option wst :=
  match s with
  | WSt _ _ _ _ (Some _) => None
  | WSt mu w l tr None =>
    match nth_error l i with
    | None => None
    | Some pc =>
      match pc with
      | WStart c =>
          if rejected c then Some (WSt mu w (wupd l i (WUnlocked (WR (RHeader false)))) tr None)
          else if mu then None else Some (WSt true w (wupd l i (WLocked c)) tr None)           (* fw.mu.Lock() *)
      | WLocked c => Some (WSt mu w (wupd l i (if reentrant w c then WTracer c else WBody c w)) tr None)
      | WTracer c => if mu then None else Some (WSt mu w (wupd l i (WBody c w)) tr None)
      | WBody c w0 =>
          match alone env w0 c with
          | Ok (w', r) => Some (WSt mu w' (wupd l i (WStored r)) tr None)
          | Panic p => Some (WSt mu w l tr (Some (i, p)))
          | NoFuel => None
          end
      | WStored r => Some (WSt false w (wupd l i (WUnlocked r)) tr None)                       (* fw.mu.Unlock() *)
      | WUnlocked r => Some (WSt mu w (wupd l i (WDone r)) (tr ++ [Returned i r]) None)
      | WDone _ => None
      end
    end
  end.
(** Somebody makes a call. *)
Definition wstart (s : wst) (c : wcall) : wst :=
  match s with WSt mu w l tr d => WSt mu w (l ++ [WStart c]) (tr ++ [Called (length l) c]) d end.
Inductive wnext : wst -> wst -> Prop :=
| wn_call s c : wdead s = None -> wnext s (wstart s c)
| wn_step s s' i : wstep s i = Some s' -> wnext s s'.
Inductive wruns : wst -> wst -> Prop :=
| wr_refl s : wruns s s
| wr_step s1 s2 s3 : wruns s1 s2 -> wnext s2 s3 -> wruns s1 s3.
End Tracers.
