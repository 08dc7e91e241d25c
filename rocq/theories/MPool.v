(** The pool of token slices shared by all Writers of a process (/repo/pools.go),
    with the memory behind it: boxes ( *[]token ), slices and their arrays.  Any
    number of goroutines; a step of one of them is one access to a box, to an
    array, or one operation of sync.Pool.

    Trusted: sync.Pool.  Put and Get are atomic; Get returns something that was Put
    and not returned since, or the result of New; the pool may drop what it has at
    any time.  Not modelled: when sync.Pool chooses which (every choice is allowed),
    and the pool of byte buffers, which is a package of its own. *)
From Verif Require Import Base MToken.

(** A slice: its array, its length and its capacity. *)
Record slice := Slice { s_arr : nat; s_len : nat; s_cap : nat }.

(** What one goroutine does with its variables [x] (of type *[]token), one memory
    access at a time. *)
Inductive pop :=
| Take (x : nat)                       (* x := takeTokens()                     pools.go:17-19 *)
| AppWrite (x : nat) (t : token)       (* append( *x, t): writes the element, in a new array if the old one is full; or append to
                                          the slice the last append to *x has returned, if that was not stored yet *)
| AppStore (x : nat)                   (* *x = the slice append returned        writer.go:982,986,1153,1154 *)
| Look (x : nat) (i : nat)             (* reads ( *x)[i]                        analysis.go:22, writer.go:1101 *)
| Cut (x : nat)                        (* *x = ( *x)[:0]                        pools.go:24 *)
| Put (x : nat).                       (* tokenPool.Put(x)                      pools.go:25 *)

(** A goroutine: the rest of its program, its variables, the slice an append in
    progress has made, and what it has read. *)
Record gor := Gor { g_rest : list pop; g_var : nat -> option nat; g_mid : option slice; g_log : list (option token) }.
Record pst := PSt {
  box : nat -> slice;                  (* what each box holds *)
  mem : nat -> list token;             (* the array with each number; slots past the end of the list were never written *)
  nbox : nat; narr : nat;              (* how many boxes and arrays were made so far *)
  pool : list nat;                     (* the boxes in tokenPool *)
  gors : nat -> gor }.

Definition set {A} (f : nat -> A) (k : nat) (v : A) : nat -> A := fun i => if Nat.eqb i k then v else f i.
(** Writing slot [i] of an array. *)
Definition poke (l : list token) (i : nat) (t : token) : list token := firstn i l ++ [t] ++ skipn (S i) l.
(** What is read through a slice. *)
Definition at_ (m : nat -> list token) (s : slice) (i : nat) : option token :=
  if i <? s_len s then nth_error (m (s_arr s)) i else None.

Definition next (g : gor) (ops : list pop) : gor := Gor ops (g_var g) (g_mid g) (g_log g).
Definition bind (g : gor) (x : nat) (v : option nat) : gor := Gor (g_rest g) (set (g_var g) x v) (g_mid g) (g_log g).
Definition midway (g : gor) (s : option slice) : gor := Gor (g_rest g) (g_var g) s (g_log g).
Definition logs (g : gor) (r : option token) : gor := Gor (g_rest g) (g_var g) (g_mid g) (g_log g ++ [r]).
Definition with_gor (s : pst) (k : nat) (g : gor) : pst := PSt (box s) (mem s) (nbox s) (narr s) (pool s) (set (gors s) k g).

(** The slice append is given: the one it has returned before, or else what the box holds. *)
Definition cur (s : pst) (g : gor) (p : nat) : slice := match g_mid g with Some sl => sl | None => box s p end.

Inductive pstep (s : pst) : nat -> pst -> Prop :=
(* tokenPool.Get() finds a box: any of those it has.  pools.go:18 *)
| PGet k x ops p l r : g_rest (gors s k) = Take x :: ops -> pool s = l ++ p :: r ->
    pstep s k (PSt (box s) (mem s) (nbox s) (narr s) (l ++ r) (set (gors s) k (bind (next (gors s k) ops) x (Some p))))
(* tokenPool.Get() calls New: a new box with a new array of capacity 256.  pools.go:10-14 *)
| PNew k x ops : g_rest (gors s k) = Take x :: ops ->
    pstep s k (PSt (set (box s) (nbox s) (Slice (narr s) 0 256)) (set (mem s) (narr s) []) (S (nbox s)) (S (narr s)) (pool s)
                   (set (gors s) k (bind (next (gors s k) ops) x (Some (nbox s)))))
(* append with room left: the element is written to the array the slice has *)
| PInPlace k x t ops p : let g := gors s k in let sl := cur s g p in
    g_rest g = AppWrite x t :: ops -> g_var g x = Some p -> s_len sl < s_cap sl ->
    pstep s k (PSt (box s) (set (mem s) (s_arr sl) (poke (mem s (s_arr sl)) (s_len sl) t)) (nbox s) (narr s) (pool s)
                   (set (gors s) k (midway (next g ops) (Some (Slice (s_arr sl) (S (s_len sl)) (s_cap sl))))))
(* append with no room left: a new array, of any larger capacity, gets the elements and the new one *)
| PGrow k x t ops p c : let g := gors s k in let sl := cur s g p in
    g_rest g = AppWrite x t :: ops -> g_var g x = Some p -> s_cap sl <= s_len sl -> s_len sl < c ->
    pstep s k (PSt (box s) (set (mem s) (narr s) (firstn (s_len sl) (mem s (s_arr sl)) ++ [t])) (nbox s) (S (narr s)) (pool s)
                   (set (gors s) k (midway (next g ops) (Some (Slice (narr s) (S (s_len sl)) c)))))
| PStore k x ops p : g_rest (gors s k) = AppStore x :: ops -> g_var (gors s k) x = Some p ->
    pstep s k (PSt (set (box s) p (cur s (gors s k) p)) (mem s) (nbox s) (narr s) (pool s) (set (gors s) k (midway (next (gors s k) ops) None)))
| PLook k x i ops p : g_rest (gors s k) = Look x i :: ops -> g_var (gors s k) x = Some p ->
    pstep s k (with_gor s k (logs (next (gors s k) ops) (at_ (mem s) (box s p) i)))
| PCut k x ops p : g_rest (gors s k) = Cut x :: ops -> g_var (gors s k) x = Some p ->
    pstep s k (PSt (set (box s) p (Slice (s_arr (box s p)) 0 (s_cap (box s p)))) (mem s) (nbox s) (narr s) (pool s) (set (gors s) k (next (gors s k) ops)))
| PPut k x ops p : g_rest (gors s k) = Put x :: ops -> g_var (gors s k) x = Some p ->
    pstep s k (PSt (box s) (mem s) (nbox s) (narr s) (p :: pool s) (set (gors s) k (next (gors s k) ops)))
(* the garbage collector empties the pool, box by box *)
| PDrop k p l r : pool s = l ++ p :: r -> pstep s k (PSt (box s) (mem s) (nbox s) (narr s) (l ++ r) (gors s)).

(** The memory the next step of a goroutine reads or writes, apart from its own
    variables and the inside of sync.Pool. *)
Inductive loc := Box (p : nat) | Array (a : nat).
Definition touches (s : pst) (k : nat) : list loc :=
  let g := gors s k in
  match g_rest g with
  | AppWrite x _ :: _ => match g_mid g, g_var g x with
                         | Some sl, _ => [Array (s_arr sl)]
                         | None, Some p => [Box p; Array (s_arr (box s p))]
                         | None, None => [] end
  | Look x _ :: _ => match g_var g x with Some p => [Box p; Array (s_arr (box s p))] | None => [] end
  | (AppStore x | Cut x) :: _ => match g_var g x with Some p => [Box p] | None => [] end
  | _ => []
  end.

(** Goroutine [k] is to run [progs k]; nothing has happened yet. *)
Definition fresh_gor (ops : list pop) : gor := Gor ops (fun _ => None) None [].
Definition pinit (progs : nat -> list pop) : pst := PSt (fun _ => Slice 0 0 0) (fun _ => []) 0 0 [] (fun k => fresh_gor (progs k)).
Inductive pruns (progs : nat -> list pop) : pst -> Prop :=
| pr_init : pruns progs (pinit progs)
| pr_step s k s' : pruns progs s -> pstep s k s' -> pruns progs s'.

(** The code.  append( *x, t) assigned to *x; giveTokens(x); a loop over *x. *)
Definition p_append (x : nat) (t : token) : list pop := [AppWrite x t; AppStore x].
Definition p_give (x : nat) : list pop := [Cut x; Put x].
Definition p_loop (x : nat) (n : nat) : list pop := map (Look x) (seq 0 n).
Definition p_fill (x : nat) (ts : list token) : list pop := flat_map (p_append x) ts.
(** *x, n = encodeTreeTokens( *x, ...) (writer.go:1153-1154, analysis.go:63-143): all the
    appends to a local slice, and one assignment. *)
Definition p_encode (x : nat) (ts : list token) : list pop := map (AppWrite x) ts ++ [AppStore x].

(** writeDynamicBlock (writer.go:1123-1232): its own list of tokens [d_xts] (variable 1)
    beside the tokens of the caller (variable 0).  The reads are those of
    studyFrequenciesX (1155), of the loop over xtokens (1182) and of the loop over
    tokens (1208); a failed output ends one of the loops early, so that fewer are
    made ([d_read], [d_outer]); the deferred giveTokens is the last thing in any case.  It may
    also end before takeTokens ([None], 1145). *)
Record dyn := Dyn { d_ll : list token; d_d : list token; d_read : nat; d_outer : nat }.
Definition d_xts (d : dyn) : list token := d_ll d ++ d_d d.
Definition p_dynamic (d : option dyn) : list pop :=
  match d with
  | None => []
  | Some d => Take 1 :: p_encode 1 (d_ll d) ++ p_encode 1 (d_d d) ++ p_loop 1 (length (d_xts d)) ++ p_loop 1 (d_read d) ++ p_loop 0 (d_outer d) ++ p_give 1
  end.
(** compressSlow (writer.go:961-994) and the compressTokens it calls (996-1019):
    the tokens are collected, counted (analysis.go:18-31), passed to
    writeDynamicBlock for a bitcounter, to writeStaticBlock for a bitcounter, and to
    one of the two, or to none, for the output ([c_last], the number of tokens read
    by writeStaticBlock, and [c_out]). *)
Record comp := Comp { c_toks : list token; c_count : option dyn; c_out : option dyn; c_last : nat }.
Definition p_compress (c : comp) : list pop :=
  Take 0 :: p_fill 0 (c_toks c) ++ p_loop 0 (length (c_toks c)) ++ p_dynamic (c_count c) ++ p_loop 0 (length (c_toks c)) ++
  p_dynamic (c_out c) ++ p_loop 0 (c_last c) ++ p_give 0.
(** A goroutine that uses its Writers: compressSlow, again and again. *)
Definition p_writer (cs : list comp) : list pop := flat_map p_compress cs.
