(** C89: an option given later replaces an earlier one; what was never given has its default. *)
From Verif Require Import Base MCommon MToken MWriter MReader MAccess SpecReader SpecLib SpecSession MSession MCalls PWFrame PSession PInst PRead PropReader PropReader3 PropReader4 PropReset PropOptions PropAccess Demo PDemo.

(** The value given last, if any. *)
Definition last_given {A} (sel : opt -> option A) (l : list opt) : option A :=
  match rev (flat_map (fun x => match sel x with Some v => [v] | None => [] end) l) with
  | v :: _ => Some v
  | [] => None
  end.
Definition sel_format (x : opt) := match x with WithFormat f => Some f | _ => None end.
Definition sel_strategy (x : opt) := match x with WithStrategy s => Some s | _ => None end.
Definition sel_level (x : opt) := match x with WithCompressLevel c => Some c | _ => None end.
Definition sel_memory (x : opt) := match x with WithMemoryLevel m => Some m | _ => None end.
Definition sel_window (x : opt) := match x with WithWindowBits w => Some w | _ => None end.
Definition sel_dict (x : opt) := match x with WithDictionary d => Some d | _ => None end.
Definition sel_tracers (x : opt) := match x with WithTracers t => Some t | _ => None end.

(** The defaults (enum_format.go:14-16, options.go:40-57): zlib, level 6, memory level 9, 15 window bits. *)
Definition said_format (l : list opt) : format := match last_given sel_format l with None | Some DefaultFormat => ZlibFormat | Some f => f end.
Definition said_strategy (l : list opt) : strategy := match last_given sel_strategy l with None => DefaultStrategy | Some s => s end.
Definition said_level (l : list opt) : Z := match last_given sel_level l with None | Some (-1)%Z => 6%Z | Some c => c end.
Definition said_memory (l : list opt) : N := match last_given sel_memory l with None | Some 0%N => 9%N | Some m => m end.
Definition said_window (l : list opt) : N := match last_given sel_window l with None | Some 0%N => 15%N | Some w => w end.
Definition said_dict (l : list opt) : option (list N) := match last_given sel_dict l with None | Some (Some []) => None | Some d => d end.
Definition said_tracers (l : list opt) : nat := match last_given sel_tracers l with None => 0 | Some t => t end.

Lemma last_given_snoc {A} (sel : opt -> option A) l x :
  last_given sel (l ++ [x]) = match sel x with Some v => Some v | None => last_given sel l end.
Proof.
  unfold last_given. rewrite flat_map_app, rev_app_distr. cbn [flat_map]. destruct (sel x); reflexivity.
Qed.
Lemma opt_apply_last l : let o := opt_apply options_reset l in
  o_format o = match last_given sel_format l with Some f => f | None => DefaultFormat end /\
  o_strategy o = match last_given sel_strategy l with Some s => s | None => DefaultStrategy end /\
  o_clevel o = match last_given sel_level l with Some c => c | None => (-1)%Z end /\
  o_mlevel o = match last_given sel_memory l with Some m => m | None => 0%N end /\
  o_wbits o = match last_given sel_window l with Some w => w | None => 0%N end /\
  o_dict o = match last_given sel_dict l with Some d => d | None => None end /\
  o_tracers o = match last_given sel_tracers l with Some t => t | None => 0 end.
Proof.
  induction l as [|x l IH] using rev_ind; [repeat split|]. cbn zeta in *. unfold opt_apply in *. rewrite fold_left_app. cbn [fold_left].
  destruct (fold_left opt_apply1 l options_reset) as [f s c m w d t]. destruct IH as [I1 [I2 [I3 [I4 [I5 [I6 I7]]]]]]. rewrite !last_given_snoc.
  destruct x; cbn in *; repeat split; auto.
Qed.

(** ** Writer: after any calls, Resets included. *)
Theorem C89_writer_configuration :
  forall env opts cs w rs, platform env -> opts_ok opts -> opts_ok (given cs) -> w_calls env (newWriter opts) cs = Ok (w, rs) ->
    let l := opts ++ given cs in
    w_reported w = [WithFormat (said_format l); WithMethod; WithStrategy (said_strategy l); WithCompressLevel (said_level l);
                    WithMemoryLevel (said_memory l); WithWindowBits (said_window l); WithDictionary (said_dict l); WithTracers (said_tracers l)].
Proof.
  intros env opts cs w rs Hb HO HC E l. unfold w_reported, acc_dict. rewrite (C25_reset_merges Hb E). fold l. unfold effective.
  destruct (opt_apply_last l) as [I1 [I2 [I3 [I4 [I5 [I6 I7]]]]]]. unfold said_format, said_strategy, said_level, said_memory, said_window, said_dict, said_tracers.
  destruct (opt_apply options_reset l) as [f s c m wb d t]. cbn in *. subst.
  destruct (last_given sel_format l) as [[]|], (last_given sel_strategy l), (last_given sel_level l) as [z|], (last_given sel_memory l) as [[|]|], (last_given sel_window l) as [[|]|], (last_given sel_dict l) as [[[|]|]|], (last_given sel_tracers l); cbn; try reflexivity;
  try (destruct z as [|?|[?|?|]]; reflexivity).
Qed.
(** ** Reader *)
Theorem C89_reader_configuration :
  forall env opts r, rlib_ok env -> Ended env opts r ->
    r_reported r = [WithFormat (match last_given sel_format opts with Some f => f | None => DefaultFormat end);
                    WithMemoryLevel (said_memory opts); WithWindowBits (said_window opts); WithDictionary (said_dict opts); WithTracers (said_tracers opts)].
Proof.
  intros env opts r HL HE. destruct (ended_facts HL HE) as [HO [EO _]]. unfold r_reported, acc_dict. rewrite EO. unfold reffective.
  destruct (opt_apply_last opts) as [I1 [I2 [I3 [I4 [I5 [I6 I7]]]]]]. unfold said_memory, said_window, said_dict, said_tracers.
  destruct (opt_apply options_reset opts) as [f s c m wb d t]. cbn in *. subst.
  destruct (last_given sel_memory opts) as [[|]|], (last_given sel_window opts) as [[|]|], (last_given sel_dict opts) as [[[|]|]|], (last_given sel_tracers opts); reflexivity.
Qed.
(** A new one, before any call. *)
Theorem C89_new_reader_configuration :
  forall opts src,
    r_reported (newReader src opts) = [WithFormat (match last_given sel_format opts with Some f => f | None => DefaultFormat end);
                    WithMemoryLevel (said_memory opts); WithWindowBits (said_window opts); WithDictionary (said_dict opts); WithTracers (said_tracers opts)].
Proof.
  intros opts src. unfold r_reported, acc_dict, newReader. cbn [r_opt].
  destruct (opt_apply_last opts) as [I1 [I2 [I3 [I4 [I5 [I6 I7]]]]]]. unfold said_memory, said_window, said_dict, said_tracers.
  destruct (opt_apply options_reset opts) as [f s c m wb d t]. cbn in *. subst.
  destruct (last_given sel_memory opts) as [[|]|], (last_given sel_window opts) as [[|]|], (last_given sel_dict opts) as [[[|]|]|], (last_given sel_tracers opts); reflexivity.
Qed.

(** Concrete cases. *)
Example C89_met_writer :
  let opts := [WithCompressLevel 9; WithFormat GZIPFormat; WithCompressLevel 3] in
  let cs := [KWrite [97]%N; KClose; KReset [WithWindowBits 10]] in
  (exists w rs, w_calls demo_wenv (newWriter opts) cs = Ok (w, rs)) /\
  said_format (opts ++ given cs) = GZIPFormat /\ said_level (opts ++ given cs) = 3%Z /\ said_memory (opts ++ given cs) = 9%N /\ said_window (opts ++ given cs) = 10%N.
Proof. split; [eexists _, _; vm_compute; reflexivity|repeat split]. Qed.
