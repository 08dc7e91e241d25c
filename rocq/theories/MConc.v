(** Model of the concurrency of reader.go: the decompression goroutine, the two
    mutexes, the two condition variables, and any number of Read, Close and
    Reset calls made concurrently from other goroutines.

    What the goroutine computes is abstracted into its program: the sequence of
    [outact]s (chunks handed to decodeBufferMustFlush, errors handed to
    closeWithError) that MReader.v records in [o_log].  Simplifications:
    - a block of statements that only touches fields protected by a mutex the
      goroutine holds is one step, together with the Unlock that ends it;
    - after stopIsForced the real goroutine runs a different (shorter) program,
      because inputBufferFill returns io.EOF; as every chunk is then dropped and
      every error ignored (outputErrorWasSet), the model keeps the old program
      and drops its actions;
    - calls of the underlying io.Reader return (a call that blocks is a step
      that is not taken yet, with mu1 held). *)
From Verif Require Import Base MCommon MReader.

(** Where a client goroutine is. *)
Inductive cpc :=
(* Read of at most n bytes, reader.go:257-283 *)
| RLock1 (n : nat)   (* startReadThread: mu1.Lock(), reader.go:302 *)
| RStart (n : nat)   (* reader.go:303-308, mu1 held *)
| RLock2 (n : nat)   (* mu2.Lock(), reader.go:260 *)
| RTest (n : nat)    (* reader.go:263-264, mu2 held *)
| RLoop (n : nat)    (* reader.go:265, mu2 held *)
| RWait (n : nat)    (* inside cv1.Wait(), mu2 released *)
| RWake (n : nat)    (* woken, cv1.Wait() must lock mu2 again *)
| RTake (n : nat)    (* reader.go:270-282, mu2 held *)
| RDone (p : list N) (e : option goerr)
(* Close, reader.go:293-298 with stopReadThreadLocked, 311-325 *)
| CLock1             (* mu1.Lock(), reader.go:294 *)
| CTest              (* reader.go:312, mu1 held *)
| CLock2             (* mu2.Lock(), reader.go:313, mu1 held *)
| CSet               (* reader.go:314-318, both held *)
| CFlags             (* reader.go:320-323, mu1 held *)
| CJoin              (* wg.Wait(), reader.go:324 *)
| CRelock            (* mu1.Lock(), reader.go:325 *)
| CEnd               (* mu1.Unlock(), reader.go:296 *)
| CDone
(* Reset, reader.go:193-253; new: the program of the goroutine on the new input *)
| ZLock1 (new : list outact)   (* mu1.Lock(), reader.go:199 *)
| ZLock2 (new : list outact)   (* mu2.Lock(), reader.go:202, mu1 held *)
| ZTest (new : list outact)    (* reader.go:205 -> 312, both held *)
| ZAgain (new : list outact)   (* mu2.Lock() of reader.go:313 by the holder of mu2 *)
| ZDone.

(** Where the decompression goroutine is. *)
Inductive tpc :=
| TLock1                       (* mu1.Lock(), reader.go:328 *)
| TRun                         (* decoding, mu1 held *)
| TErr (e : goerr)             (* closeWithError: mu2.Lock(), reader.go:1377, mu1 held *)
| TErrSet (e : goerr)          (* reader.go:1378-1382, both held *)
| TFlush (p : list N)          (* the loop of decodeBufferMustFlush, reader.go:1318-1319, mu1 held *)
| TF1 (p : list N)             (* mu2.Lock(), reader.go:1320 *)
| TF2 (p : list N)             (* reader.go:1321, mu2 held *)
| TWait (p : list N)           (* inside cv2.Wait() *)
| TWake (p : list N)           (* woken, cv2.Wait() must lock mu2 again *)
| TF3 (p : list N)             (* mu1.Lock(), reader.go:1325 *)
| TF4 (p : list N)             (* reader.go:1327-1332, mu1 held *)
| TF5 (p : list N)             (* mu2.Lock(), reader.go:1334, mu1 held *)
| TF6 (p : list N).            (* reader.go:1335-1347, both held *)

(** The state of the Reader (reader.go:21-87), the goroutines and the calls.
    [hist]: results of the Read calls, in the order in which they release mu2. *)
Record st := St {
  mu1 : bool; mu2 : bool;                   (* locked? *)
  oerr : option goerr; obuf : list N;       (* outputError, outputBuffer *)
  started : bool; stopped : bool;           (* readThreadWasStarted, readThreadWasStopped *)
  errset : bool; forced : bool;             (* outputErrorWasSet, stopIsForced *)
  thr : option tpc; prog : list outact;     (* the goroutine and the rest of its program *)
  zombies : nat;                            (* goroutines that have only wg.Done() left to do *)
  cls : list cpc; hist : list (list N * option goerr) }.

Fixpoint upd {A} (l : list A) (i : nat) (x : A) : list A :=
  match l, i with
  | [], _ => []
  | _ :: t, O => x :: t
  | a :: t, S j => a :: upd t j x
  end.

(** sync.Cond: Wait returns only after Signal or Broadcast. *)
Definition is_wait (c : cpc) : bool := match c with RWait _ => true | _ => false end.
Definition wake (c : cpc) : cpc := match c with RWait n => RWake n | c => c end.
(** cv1.Signal: wakes one waiting caller, any one (here the j-th), if there is one *)
Definition signal1 (j : nat) (l : list cpc) : option (list cpc) :=
  match nth_error l j with
  | Some (RWait n) => Some (upd l j (RWake n))
  | _ => if existsb is_wait l then None else Some l
  end.
(** cv2.Signal / cv2.Broadcast: only the goroutine ever waits there *)
Definition signal2 (t : option tpc) : option tpc :=
  match t with Some (TWait p) => Some (TWake p) | t => t end.

Definition is_nil {A} (l : list A) : bool := match l with [] => true | _ => false end.
Definition mu_lock (m : bool) {A} (x : A) : option A := if m then None else Some x.

(** capacity of outputBuffer: reader.go:129-131, 117 *)
Definition out_cap (o : options) : N := (2 ^ (o_mlevel o + 6))%N.

Section Cap.
Variable ocap : N.                          (* capacity of outputBuffer *)

(** One step of client [i]; [k]: number of bytes outputBuffer.Read returns,
    [j]: the caller woken by cv1.Signal. *)
Definition cstep (s : st) (i k j : nat) : option st :=
  match s with
  | St m1 m2 e b sta sto es fo t pr z cl h =>
    match nth_error cl i with
    | None => None
    | Some c =>
      match c with
      | RLock1 n => mu_lock m1 (St true m2 e b sta sto es fo t pr z (upd cl i (RStart n)) h)
      | RStart n =>
          Some (St false m2 e b true sto es fo (if sta then t else Some TLock1) pr z (upd cl i (RLock2 n)) h)
      | RLock2 n => mu_lock m2 (St m1 true e b sta sto es fo t pr z (upd cl i (RTest n)) h)
      | RTest n =>
          match e, b with
          | None, [] => Some (St m1 m2 e b sta sto es fo (signal2 t) pr z (upd cl i (RLoop n)) h)
          | _, _ => Some (St m1 m2 e b sta sto es fo t pr z (upd cl i (RTake n)) h)
          end
      | RLoop n =>
          match e, b with
          | None, [] => Some (St m1 false e b sta sto es fo t pr z (upd cl i (RWait n)) h)
          | _, _ => Some (St m1 m2 e b sta sto es fo t pr z (upd cl i (RTake n)) h)
          end
      | RWait _ => None
      | RWake n => mu_lock m2 (St m1 true e b sta sto es fo t pr z (upd cl i (RLoop n)) h)
      | RTake n =>
          match b with
          | [] => Some (St m1 false e b sta sto es fo t pr z (upd cl i (RDone [] e)) (h ++ [([], e)]))
          | _ =>
            if (k <=? n) && (k <=? length b) && ((0 <? k) || (n =? 0))%nat then
              let b' := skipn k b in
              let cl' := upd cl i (RDone (firstn k b) None) in
              let h' := h ++ [(firstn k b, None)] in
              if is_nil b' then Some (St m1 false e b' sta sto es fo (signal2 t) pr z cl' h')
              else match signal1 j cl' with
                   | None => None
                   | Some cl' => Some (St m1 false e b' sta sto es fo t pr z cl' h')
                   end
            else None
          end
      | RDone _ _ => None
      | CLock1 => mu_lock m1 (St true m2 e b sta sto es fo t pr z (upd cl i CTest) h)
      | CTest => Some (St m1 m2 e b sta sto es fo t pr z (upd cl i (if sta && negb sto then CLock2 else CEnd)) h)
      | CLock2 => mu_lock m2 (St m1 true e b sta sto es fo t pr z (upd cl i CSet) h)
      | CSet => Some (St m1 false (Some Canceled) [] sta sto es fo (signal2 t) pr z (upd (map wake cl) i CFlags) h)
      | CFlags => Some (St false m2 e b sta sto true true t pr z (upd cl i CJoin) h)
      | CJoin => match t, z with
                 | None, O => Some (St m1 m2 e b sta sto es fo t pr z (upd cl i CRelock) h)
                 | _, _ => None end
      | CRelock => mu_lock m1 (St true m2 e b sta sto es fo t pr z (upd cl i CEnd) h)
      | CEnd => Some (St false m2 e b sta sto es fo t pr z (upd cl i CDone) h)
      | CDone => None
      | ZLock1 new => mu_lock m1 (St true m2 e b sta sto es fo t pr z (upd cl i (ZLock2 new)) h)
      | ZLock2 new => mu_lock m2 (St m1 true e b sta sto es fo t pr z (upd cl i (ZTest new)) h)
      | ZTest new =>
          if sta && negb sto then Some (St m1 m2 e b sta sto es fo t pr z (upd cl i (ZAgain new)) h)
          else Some (St false false None [] false false false false t new z (upd cl i ZDone) h)
      | ZAgain new => mu_lock m2 s          (* never: m2 is locked, by this very call *)
      | ZDone => None
      end
    end
  end.

(** One step of the decompression goroutine; [k]: number of bytes
    outputBuffer.Write takes (PrepareBulkRead may return less than everything,
    because of the wrap-around of the ring buffer). *)
Definition tstep (s : st) (k j : nat) : option st :=
  match s with
  | St m1 m2 e b sta sto es fo t pr z cl h =>
    match t with
    | None => None
    | Some c =>
      match c with
      | TLock1 => mu_lock m1 (St true m2 e b sta sto es fo (Some TRun) pr z cl h)
      | TRun =>
          match pr with
          | [] => Some (St false m2 e b sta true es fo None [] (S z) cl h)     (* reader.go:354-356 *)
          | OErr x :: r => Some (St m1 m2 e b sta sto es fo (Some (if es then TRun else TErr x)) r z cl h)
          | OData p :: r => Some (St m1 m2 e b sta sto es fo (Some (if fo then TRun else TFlush p)) r z cl h)
          end
      | TErr x => mu_lock m2 (St m1 true e b sta sto es fo (Some (TErrSet x)) pr z cl h)
      | TErrSet x => Some (St m1 false (Some x) b sta sto true fo (Some TRun) pr z (map wake cl) h)
      | TFlush [] => Some (St m1 m2 e b sta sto es fo (Some TRun) pr z cl h)
      | TFlush p => Some (St false m2 e b sta sto es fo (Some (TF1 p)) pr z cl h)
      | TF1 p => mu_lock m2 (St m1 true e b sta sto es fo (Some (TF2 p)) pr z cl h)
      | TF2 p => Some (St m1 false e b sta sto es fo (Some (if (ocap <=? lenN b)%N then TWait p else TF3 p)) pr z cl h)
      | TWait _ => None
      | TWake p => mu_lock m2 (St m1 true e b sta sto es fo (Some (TF2 p)) pr z cl h)
      | TF3 p => mu_lock m1 (St true m2 e b sta sto es fo (Some (TF4 p)) pr z cl h)
      | TF4 p => Some (St m1 m2 e b sta sto es fo (Some (if fo then TRun else TF5 p)) pr z cl h)
      | TF5 p => mu_lock m2 (St m1 true e b sta sto es fo (Some (TF6 p)) pr z cl h)
      | TF6 p =>
          let free := N.to_nat (ocap - lenN b)%N in
          if (free =? 0)%nat then
            Some (St m1 false e b sta sto es fo (Some (TFlush p)) pr z cl h)
          else if ((0 <? k) && (k <=? length p) && (k <=? free))%nat then
            match signal1 j cl with
            | None => None
            | Some cl => Some (St m1 false e (b ++ firstn k p) sta sto es fo (Some (TFlush (skipn k p))) pr z cl h)
            end
          else None
      end
    end
  end.

(** A choice of the scheduler. *)
Inductive choice :=
| GoClient (i k j : nat)
| GoThread (k j : nat)
| GoDone.                                  (* some finished goroutine runs wg.Done(), reader.go:357 *)
Definition sched (s : st) (c : choice) : option st :=
  match c with
  | GoClient i k j => cstep s i k j
  | GoThread k j => tstep s k j
  | GoDone => match s with
    | St m1 m2 e b sta sto es fo t pr (S z) cl h => Some (St m1 m2 e b sta sto es fo t pr z cl h)
    | _ => None end
  end.
(** The Reader and the calls in progress run by themselves ... *)
Definition step (s s' : st) : Prop := exists c, sched s c = Some s'.
Definition add_call (s : st) (c : cpc) : st :=
  match s with
  | St m1 m2 e b sta sto es fo t pr z cl h => St m1 m2 e b sta sto es fo t pr z (cl ++ [c]) h
  end.
(** ... and at any time somebody may make a new call, of a kind allowed by [calls]. *)
Inductive next (calls : cpc -> Prop) (s : st) : st -> Prop :=
| next_step s' : step s s' -> next calls s s'
| next_call c : calls c -> next calls s (add_call s c).
End Cap.

Inductive reads_and_closes : cpc -> Prop :=
| call_read n : reads_and_closes (RLock1 n)
| call_close : reads_and_closes CLock1.
Inductive any_call : cpc -> Prop :=
| any_read n : any_call (RLock1 n)
| any_close : any_call CLock1
| any_reset new : any_call (ZLock1 new).
(** Has the call returned? *)
Definition returned (c : cpc) : Prop := match c with RDone _ _ | CDone | ZDone => True | _ => False end.

(** A Reader just made by NewReader (reader.go:91-119), or after Reset. *)
Definition fresh (pr : list outact) : st := St false false None [] false false false false None pr 0 [] [].

Inductive steps (R : st -> st -> Prop) : st -> st -> Prop :=
| steps_refl s : steps R s s
| steps_cons s1 s2 s3 : R s1 s2 -> steps R s2 s3 -> steps R s1 s3.

Fixpoint run_choices (ocap : N) (s : st) (l : list choice) : option st :=
  match l with
  | [] => Some s
  | c :: r => match sched ocap s c with Some s' => run_choices ocap s' r | None => None end
  end.
