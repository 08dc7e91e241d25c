(** Reset, options and the option without effect: C08, C25, C23. *)
From Verif Require Import Base SpecChecksum SpecHuffman SpecDeflate SpecEvents MChecksum MToken MCommon MWriter SpecLib SpecSession MSession MCalls
  MReader SpecReader PWSim PWFrame PInst PRead PropReader4 Demo PDemo.

Definition platform (env : wenv) : Prop := bytesPerBlock env = 4 \/ bytesPerBlock env = 8.

(** ** one call keeps the frame *)
Lemma call_J env (Hb : platform env) qb op w c : quiet env \/ qb = false \/ (match c with KReset _ => False | _ => True end) -> op = populateWriterDefaults op -> J env op qb w ->
  match w_call env w c with Ok (w', _) => J env (populateWriterDefaults (opt_apply op (given [c]))) qb w' | _ => True end.
Proof.
  intros Q EP H. assert (E0 : populateWriterDefaults (opt_apply op []) = op) by (symmetry; exact EP).
  destruct c as [p|ft|h| |o]; cbn [w_call given flat_map app].
  - rewrite E0. pose proof (j_Write Hb p H) as K. destruct (w_Write env w p) as [[w' [n e]]| |]; cbn [rbind]; auto.
  - rewrite E0. pose proof (j_Flush Hb ft H) as K. destruct (w_Flush env w ft) as [[w' e]| |]; cbn [rbind]; auto.
  - rewrite E0. pose proof (j_SetHeader h H) as K. destruct (w_SetHeader w h); auto.
  - rewrite E0. pose proof (j_Close Hb H) as K. destruct (w_Close env w) as [[w' e]| |]; cbn [rbind]; auto. apply K.
  - rewrite app_nil_r. assert (Q' : quiet env \/ qb = false) by tauto. pose proof (@j_Reset env op qb w o Q' EP H) as K.
    destruct (w_Reset w o); cbn [rbind]; auto. apply K.
Qed.
Lemma opt_apply_app o a b : opt_apply o (a ++ b) = opt_apply (opt_apply o a) b.
Proof. apply fold_left_app. Qed.
Lemma populate_idem o : populateWriterDefaults (populateWriterDefaults o) = populateWriterDefaults o.
Proof. exact (populate_merge o []). Qed.
Lemma calls_J env (Hb : platform env) qb cs : quiet env \/ qb = false \/ no_reset cs -> forall op w, op = populateWriterDefaults op -> J env op qb w ->
  match w_calls env w cs with Ok (w', _) => J env (populateWriterDefaults (opt_apply op (given cs))) qb w' | _ => True end.
Proof.
  induction cs as [|c cs IH]; intros Q op w EP H; cbn [w_calls].
  - cbn [given flat_map]. change (opt_apply op []) with op. rewrite <- EP. exact H.
  - assert (Q1 : quiet env \/ qb = false \/ match c with KReset _ => False | _ => True end) by (destruct Q as [Q|[Q|Q]]; auto; inversion Q; auto).
    assert (Q2 : quiet env \/ qb = false \/ no_reset cs) by (destruct Q as [Q|[Q|Q]]; auto; inversion Q; auto).
    pose proof (@call_J env Hb qb op w c Q1 EP H) as K. destruct (w_call env w c) as [[w1 x]| |]; cbn [rbind]; auto.
    pose proof (IH Q2 _ w1 (eq_sym (populate_idem _)) K) as K2. destruct (w_calls env w1 cs) as [[w2 xs]| |]; cbn [rbind]; auto.
    rewrite populate_merge in K2. rewrite <- opt_apply_app in K2. replace (given (c :: cs)) with (given [c] ++ given cs) by (unfold given; cbn [flat_map]; rewrite app_nil_r; reflexivity). exact K2.
Qed.

(** ** C25 *)
(** [l] is the last value the list sets, if any *)
Definition last_of {A} (get : opt -> option A) (opts : list opt) : option A :=
  fold_left (fun acc o => match get o with Some x => Some x | None => acc end) opts None.
Definition or_default {A} (x : option A) (d : A) : A := match x with Some v => v | None => d end.
Definition get_format (o : opt) := match o with WithFormat x => Some x | _ => None end.
Definition get_strategy (o : opt) := match o with WithStrategy x => Some x | _ => None end.
Definition get_level (o : opt) := match o with WithCompressLevel x => Some x | _ => None end.
Definition get_memory (o : opt) := match o with WithMemoryLevel x => Some x | _ => None end.
Definition get_window (o : opt) := match o with WithWindowBits x => Some x | _ => None end.
Definition get_dict (o : opt) := match o with WithDictionary x => Some x | _ => None end.

Lemma fold_get {A} (get : opt -> option A) l : forall acc, fold_left (fun acc o => match get o with Some x => Some x | None => acc end) l acc =
  match last_of get l with Some x => Some x | None => acc end.
Proof.
  unfold last_of. induction l as [|o l IH]; intros acc; cbn [fold_left]; auto. rewrite IH. rewrite (IH (match get o with Some x => Some x | None => None end)).
  destruct (fold_left _ l None); auto. destruct (get o); auto.
Qed.
Lemma last_cons {A} (get : opt -> option A) o l : last_of get (o :: l) = match last_of get l with Some x => Some x | None => get o end.
Proof. unfold last_of at 1. cbn [fold_left]. rewrite fold_get. destruct (last_of get l); auto. destruct (get o); auto. Qed.
Lemma apply_last l : forall o, opt_apply o l =
  Options (or_default (last_of get_format l) (o_format o)) (or_default (last_of get_strategy l) (o_strategy o)) (or_default (last_of get_level l) (o_clevel o))
          (or_default (last_of get_memory l) (o_mlevel o)) (or_default (last_of get_window l) (o_wbits o)) (or_default (last_of get_dict l) (o_dict o)) (o_tracers (opt_apply o l)).
Proof.
  induction l as [|x l IH]; intros o; [destruct o; reflexivity|]. unfold opt_apply in *. cbn [fold_left]. rewrite IH at 1. rewrite !last_cons.
  destruct o as [f s c m w d t]. destruct x; cbn [opt_apply1 get_format get_strategy get_level get_memory get_window get_dict o_format o_strategy o_clevel o_mlevel o_wbits o_dict];
  f_equal; match goal with |- or_default (last_of ?g ?l) _ = _ => destruct (last_of g l); reflexivity end.
Qed.
Theorem C25_last_option_wins :
  forall opts, let o := effective opts in
    o_format o = match last_of get_format opts with None | Some DefaultFormat => ZlibFormat | Some f => f end /\
    o_strategy o = or_default (last_of get_strategy opts) DefaultStrategy /\
    o_clevel o = (let l := or_default (last_of get_level opts) (-1)%Z in if (l =? -1)%Z then 6%Z else l) /\
    o_mlevel o = (let m := or_default (last_of get_memory opts) 0%N in if (m =? 0)%N then 9%N else m) /\
    o_wbits o = (let w := or_default (last_of get_window opts) 0%N in if (w =? 0)%N then 15%N else w) /\
    o_dict o = or_default (last_of get_dict opts) None.
Proof.
  intros opts. unfold effective. rewrite apply_last. cbn [options_reset o_format o_strategy o_clevel o_mlevel o_wbits o_dict populateWriterDefaults populateReaderDefaults].
  repeat split; auto. destruct (last_of get_format opts) as [[]|]; reflexivity.
Qed.
Theorem C25_reset_merges :
  forall env opts cs w rs, platform env -> w_calls env (newWriter opts) cs = Ok (w, rs) ->
    w_opt w = effective (opts ++ given cs).
Proof.
  intros env opts cs w rs Hb E. pose proof (@calls_J env Hb false cs (or_intror (or_introl eq_refl)) _ _ (eq_sym (populate_idem _)) (J_new env false opts)) as K.
  rewrite E in K. destruct K as [[K _] _]. rewrite K, populate_merge, <- opt_apply_app. reflexivity.
Qed.

Theorem C25_reader_options :
  forall opts, let o := reffective opts in
    o_format o = or_default (last_of get_format opts) DefaultFormat /\
    o_mlevel o = (let m := or_default (last_of get_memory opts) 0%N in if (m =? 0)%N then 9%N else m) /\
    o_wbits o = (let w := or_default (last_of get_window opts) 0%N in if (w =? 0)%N then 15%N else w) /\
    o_dict o = or_default (last_of get_dict opts) None.
Proof.
  intros opts. unfold reffective. rewrite apply_last. cbn [options_reset o_format o_strategy o_clevel o_mlevel o_wbits o_dict populateReaderDefaults]. auto.
Qed.
Theorem C25_reader_reset_merges :
  forall src opts src' opts', r_opt (r_reset (newReader src opts) src' opts') = reffective (opts ++ opts') /\
    r_opt (newReader src opts) = reffective opts.
Proof. intros. split; auto. rewrite reffective_app. destruct opts'; reflexivity. Qed.
(** the option constructors accept exactly the documented values (the enumeration types cover WithFormat, WithMethod, WithStrategy) *)
Theorem C25_valid_options :
  forall x, opt_valid x = true <->
    match x with
    | WithCompressLevel l => (-1 <= l <= 9)%Z
    | WithMemoryLevel m => (0 <= m <= 9)%N
    | WithWindowBits w => w = 0%N \/ (8 <= w <= 15)%N
    | WithDictionary d => d <> Some []
    | _ => True
    end.
Proof.
  destruct x as [f| |s|l|m|w|[[|c d]|]|t]; cbn [opt_valid]; try tauto; try (split; [discriminate|congruence]); try (split; auto; discriminate).
  - rewrite andb_true_iff, !Z.leb_le. tauto.
  - rewrite N.leb_le. split; [intros; split; auto; lia|lia].
  - rewrite orb_true_iff, andb_true_iff, N.eqb_eq, !N.leb_le. tauto.
Qed.
Example C25_example : o_clevel (effective [WithCompressLevel 9; WithFormat GZIPFormat; WithCompressLevel (-1)]) = 6%Z /\ o_format (effective [WithFormat GZIPFormat; WithMemoryLevel 3]) = GZIPFormat.
Proof. split; reflexivity. Qed.

(** ** C08 *)
Lemma like_of env env2 ka kb kc kd (He : env2 = shift_env env ka kb kc kd) (Hb : platform env) cs : forall op w1 w2 ev0, op = populateWriterDefaults op ->
  J env op false w1 -> J env2 op false w2 -> WR ka kb kc kd ev0 [] w1 w2 ->
  match w_calls env w1 cs, w_calls env2 w2 cs with
  | Ok (x, r1), Ok (y, r2) => r1 = r2 /\ WR ka kb kc kd ev0 [] x y
  | Panic p, Panic q => p = q
  | NoFuel, NoFuel => True
  | _, _ => False
  end.
Proof.
  subst env2. induction cs as [|c cs IH]; intros op w1 w2 ev0 EP J1 J2 HW; cbn [w_calls]; auto.
  assert (Hb2 : platform (shift_env env ka kb kc kd)) by exact Hb.
  pose proof (@call_J env Hb false op w1 c (or_intror (or_introl eq_refl)) EP J1) as K1.
  pose proof (@call_J _ Hb2 false op w2 c (or_intror (or_introl eq_refl)) EP J2) as K2.
  assert (KC : match w_call env w1 c, w_call (shift_env env ka kb kc kd) w2 c with
    | Ok (x, r1), Ok (y, r2) => r1 = r2 /\ WR ka kb kc kd ev0 [] x y | Panic p, Panic q => p = q | NoFuel, NoFuel => True | _, _ => False end).
  { destruct c as [p|ft|h| |o]; cbn [w_call].
    - pose proof (s_Write env p HW) as S. destruct (w_Write env w1 p) as [[x [n e]]| |], (w_Write _ w2 p) as [[y [n' e']]| |]; cbn [arel rbind] in *; try contradiction; auto. destruct S as [S1 S2]. inversion S1; auto.
    - pose proof (s_Flush env ft HW) as S. destruct (w_Flush env w1 ft) as [[x e]| |], (w_Flush _ w2 ft) as [[y e']| |]; cbn [arel rbind] in *; try contradiction; auto. destruct S as [-> S2]. auto.
    - destruct (s_SetHeader h HW) as [S1 S2]. destruct (w_SetHeader w1 h), (w_SetHeader w2 h). cbn [fst snd] in *. subst. auto.
    - pose proof (s_Close env HW) as S. destruct (w_Close env w1) as [[x e]| |], (w_Close _ w2) as [[y e']| |]; cbn [arel rbind] in *; try contradiction; auto. destruct S as [-> S2]. auto.
    - unfold w_Reset. rewrite <- (WR_state HW).
      assert (EO : w_opt w1 = w_opt w2) by (destruct J1 as [[J1 _] _], J2 as [[J2 _] _]; congruence).
      pose proof (WR_weak HW) as H0.
      assert (KR : forall o', let r w := match (match o' with
         | [] => Ok (set_lz (set_out w (match w_out w with WOut a b _ _ n c t st _ _ => WOut a b [] [] n c t st noStream None end)) (lz_clear (w_lz (set_out w (match w_out w with WOut a b _ _ n c t st _ _ => WOut a b [] [] n c t st noStream None end)))))
         | _ => match set_lz (set_out w (match w_out w with WOut a b _ _ n c t st _ _ => WOut a b [] [] n c t st noStream None end)) (lz_clear (w_lz (set_out w (match w_out w with WOut a b _ _ n c t st _ _ => WOut a b [] [] n c t st noStream None end)))) with
             | Writer _ _ l i out num h fl sy ev => Ok (Writer (populateWriterDefaults (opt_apply (w_opt w) o')) (compressConfig (populateWriterDefaults (opt_apply (w_opt w) o'))) (lz_init (hybridOptions (populateWriterDefaults (opt_apply (w_opt w) o'))) (lz_calls l)) i out num h fl sy ev) end end) with Ok w' => w' | _ => w end in WR ka kb kc kd ev0 [] (r w1) (r w2)).
      { intros o'. cbv zeta. destruct H0 as [B1 B2 B3 B4 B5 B6 B7 B8 B9]. destruct w1 as [q1 c1 l1 i1 u1 n1 h1 f1 s1 e1], w2 as [q2 c2 l2 i2 u2 n2 h2 f2 s2 e2]. cbn in *. subst q1.
        destruct B3 as [L1 [L2 [L3 L4]]]. destruct B5 as [O1 [O2 [O3 [O4 [O5 [O6 [O7 O8]]]]]]].
        destruct o' as [|x r]; unfold WR; (replace (w_state _) with noStream by (destruct u1; reflexivity)); cbn [lvl]; destruct u1, u2; cbn in *; subst;
        (apply wrel_intro; cbn; auto; first [solve [split; lia]|solve [unfold lrel; cbn; repeat split; auto]|solve [unfold same_opt; repeat split; auto]|solve [unfold orel; cbn; repeat split; auto; congruence]|idtac]). }
      specialize (KR o). cbv zeta in KR. destruct (w_state w1); cbn [rbind]; auto; destruct o as [|x r]; cbn [rbind]; auto;
      (destruct w1 as [q1 c1 l1 i1 u1 n1 h1 f1 s1 e1], w2 as [q2 c2 l2 i2 u2 n2 h2 f2 s2 e2]; cbn in KR |- *; auto). }
  destruct (w_call env w1 c) as [[x1 r1]| |], (w_call _ w2 c) as [[x2 r2]| |]; cbn [rbind]; try contradiction; auto.
  destruct KC as [-> KC]. pose proof (IH _ x1 x2 ev0 (eq_sym (populate_idem _)) K1 K2 KC) as KI.
  destruct (w_calls env x1 cs) as [[y1 rs1]| |], (w_calls _ x2 cs) as [[y2 rs2]| |]; cbn [rbind]; try contradiction; auto.
  destruct KI as [-> KI]. auto.
Qed.
Lemma like_fresh env op w1 f ka kb kc kd : platform env -> op = populateWriterDefaults op -> J env op false w1 -> J (shift_env env ka kb kc kd) op false f ->
  w_events f = [] -> WR ka kb kc kd (map pre_of (w_events w1)) [] w1 f -> like (fun _ => True) env w1 (shift_env env ka kb kc kd) f.
Proof.
  intros Hb EP J1 J2 EV HW cs _. pose proof (@like_of env _ ka kb kc kd eq_refl Hb cs op w1 f _ EP J1 J2 HW) as K.
  destruct (w_calls env w1 cs) as [[x r1]| |], (w_calls _ f cs) as [[y r2]| |]; try contradiction; auto.
  destruct K as [-> K]. split; auto. split; [apply (wr_out K)|]. exists (map pre_of (w_events y)). rewrite EV. split; auto. apply (wr_ev K).
Qed.
(** what Reset leaves behind, given an empty bit buffer *)
Lemma reset_like env opts w opts' w' : platform env -> w_opt w = effective opts -> (exists qb, J env (effective opts) qb w) -> obLen (w_out w) = 0 -> w_Reset w opts' = Ok w' ->
  like (fun _ => True) env w' (from_now env w) (set_hdr (newWriter (opts ++ opts')) (w_hdr w)).
Proof.
  intros Hb EO [qb JQ] EL ER. pose proof JQ as [[F1 [F2 F3]] [H1 _]]. specialize (H1 EL).
  assert (EM : effective (opts ++ opts') = populateWriterDefaults (opt_apply (effective opts) opts')).
  { unfold effective. rewrite populate_merge, opt_apply_app. reflexivity. }
  unfold from_now. apply like_fresh with (op := effective (opts ++ opts')); auto.
  - unfold effective. symmetry. apply populate_idem.
  - assert (J0 : J env (effective opts) false w). { destruct JQ as [A [B C]]. split; auto. split; auto. destruct (w_state w); auto; try discriminate; intuition discriminate. }
    pose proof (@j_Reset env _ false w opts' (or_intror eq_refl) (eq_sym (populate_idem _)) J0) as K. rewrite ER in K. rewrite EM. apply K.
  - pose proof (J_new (shift_env env (lz_calls (w_lz w)) (sinkCalls (w_out w)) (w_flushes w) (w_syncs w)) false (opts ++ opts')) as K. exact K.
  - unfold newWriter. change (populateWriterDefaults (opt_apply options_reset (opts ++ opts'))) with (effective (opts ++ opts')).
    assert (EW : opts' = [] -> effective (opts ++ opts') = effective opts) by (intros ->; rewrite app_nil_r; auto).
    unfold w_Reset in ER. destruct w as [o c l i u n h f s e]. destruct u as [bb bl ob sk sc oc ot os ws we]. destruct l as [lo lh lb lc].
    cbn [w_opt w_cfg w_lz w_out w_in w_num w_hdr w_flushes w_syncs w_events w_state wstate set_out set_lz lz_o lz_clear lz_calls obLen obBlock] in *. subst o.
    rewrite <- EM in ER. clear EM. revert EW ER. generalize (effective (opts ++ opts')) as oo. intros oo EW ER.
    destruct ws; try discriminate; (destruct opts' as [|x r]; [rewrite EW in * by auto|]); inversion ER; subst w'; clear ER;
    (unfold WR; cbn [w_state w_out wstate lvl]; apply wrel_intro; cbn;
     [unfold same_opt; auto 10 | auto | unfold lrel; cbn; auto | split; lia | unfold orel; cbn; repeat split; auto; congruence | auto | auto | auto | rewrite app_nil_r; auto]).
Qed.
Theorem C08_reset_is_fresh :
  forall env opts cs w rs opts' w',
    platform env -> quiet env ->
    w_calls env (newWriter opts) cs = Ok (w, rs) ->
    w_Reset w opts' = Ok w' ->
    like (fun _ => True) env w' (from_now env w) (set_hdr (newWriter (opts ++ given cs ++ opts')) (w_hdr w)).
Proof.
  intros env opts cs w rs opts' w' Hb HQ E ER.
  pose proof (@calls_J env Hb true cs (or_introl HQ) _ _ (eq_sym (populate_idem _)) (J_new env true opts)) as K. rewrite E in K.
  rewrite populate_merge, <- opt_apply_app in K. fold (effective (opts ++ given cs)) in K. rewrite app_assoc.
  apply reset_like; auto.
  - apply K.
  - eauto.
  - destruct K as [_ [_ K]]. unfold w_Reset in ER. destruct (w_state w); try discriminate; auto; apply K; auto.
Qed.
(** Without any assumption on the underlying writer: after a Close that
    returned nil. *)
Theorem C08_reset_after_close :
  forall env opts cs w rs w1 opts' w',
    platform env -> no_reset cs ->
    w_calls env (newWriter opts) cs = Ok (w, rs) ->
    w_Close env w = Ok (w1, None) ->
    w_Reset w1 opts' = Ok w' ->
    like (fun _ => True) env w' (from_now env w1) (set_hdr (newWriter (opts ++ opts')) (w_hdr w1)).
Proof.
  intros env opts cs w rs w1 opts' w' Hb HN E EC ER.
  pose proof (@calls_J env Hb true cs (or_intror (or_intror HN)) _ _ (eq_sym (populate_idem _)) (J_new env true opts)) as K. rewrite E in K.
  assert (EG : given cs = []). { clear - HN. induction HN as [|c cs H HN IH]; auto. unfold given in *. cbn [flat_map]. rewrite IH. destruct c; auto. contradiction. }
  rewrite EG in K. change (opt_apply (populateWriterDefaults (opt_apply options_reset opts)) []) with (populateWriterDefaults (opt_apply options_reset opts)) in K. rewrite populate_idem in K.
  pose proof (j_Close Hb K) as K1. rewrite EC in K1. destruct K1 as [K1 [K2 K3]]. apply reset_like; auto.
  - apply K1.
  - exists true. exact K1.
Qed.
(** Reset succeeds exactly when no stream is open. *)
Theorem C08_reset_panics_only_if_open :
  forall w opts, (exists w', w_Reset w opts = Ok w') <-> w_state w <> openStream /\ w_state w <> closingStream.
Proof.
  intros w opts. unfold w_Reset. split.
  - intros [w' H]. destruct (w_state w); try discriminate; split; discriminate.
  - intros [H1 H2]. destruct (w_state w); try congruence; destruct opts; try (eexists; reflexivity); destruct w; eexists; reflexivity.
Qed.
(** the hypotheses are met: a finished session on a fallible underlying writer, then Reset to another format *)
Example C08_example : platform demo_wenv /\ quiet demo_wenv /\
  exists w rs w' y rs', w_calls demo_wenv (newWriter [WithMemoryLevel 1]) [KWrite [97; 98]%N; KFlush SyncFlush; KWrite [99]%N; KClose; KWrite [1]%N] = Ok (w, rs) /\
    rs = [RWrite 2 None; RError None; RWrite 1 None; RError None; RWrite 0 (Some ErrClosed)] /\
    w_Reset w [WithFormat RawFormat] = Ok w' /\
    w_calls demo_wenv w' [KWrite [98]%N; KClose] = Ok (y, rs') /\ sink (w_out y) = [0; 1; 0; 254; 255; 98; 1; 0; 0; 255; 255]%N.
Proof. split; [right; reflexivity|]. split; [intros n; split; [reflexivity|left; reflexivity]|]. eexists _, _, _, _, _. repeat (split; [vm_compute; reflexivity|]). vm_compute; reflexivity. Qed.

(** ** C23: FixedStrategy is the same as DefaultStrategy *)
Lemma like_nr env ka kb kc kd sk0 cs : no_reset cs -> forall w1 w2 ev0, WR ka kb kc kd ev0 sk0 w1 w2 ->
  match w_calls env w1 cs, w_calls (shift_env env ka kb kc kd) w2 cs with
  | Ok (x, r1), Ok (y, r2) => r1 = r2 /\ WR ka kb kc kd ev0 sk0 x y
  | Panic p, Panic q => p = q
  | NoFuel, NoFuel => True
  | _, _ => False
  end.
Proof.
  intros HN. induction HN as [|c cs HC HN IH]; intros w1 w2 ev0 HW; cbn [w_calls]; auto.
  assert (KC : match w_call env w1 c, w_call (shift_env env ka kb kc kd) w2 c with
    | Ok (x, r1), Ok (y, r2) => r1 = r2 /\ WR ka kb kc kd ev0 sk0 x y | Panic p, Panic q => p = q | NoFuel, NoFuel => True | _, _ => False end).
  { destruct c as [p|ft|h| |o]; cbn [w_call]; try contradiction.
    - pose proof (s_Write env p HW) as S. destruct (w_Write env w1 p) as [[x [n e]]| |], (w_Write _ w2 p) as [[y [n' e']]| |]; cbn [arel rbind] in *; try contradiction; auto. destruct S as [S1 S2]. inversion S1; auto.
    - pose proof (s_Flush env ft HW) as S. destruct (w_Flush env w1 ft) as [[x e]| |], (w_Flush _ w2 ft) as [[y e']| |]; cbn [arel rbind] in *; try contradiction; auto. destruct S as [-> S2]. auto.
    - destruct (s_SetHeader h HW) as [S1 S2]. destruct (w_SetHeader w1 h), (w_SetHeader w2 h). cbn [fst snd] in *. subst. auto.
    - pose proof (s_Close env HW) as S. destruct (w_Close env w1) as [[x e]| |], (w_Close _ w2) as [[y e']| |]; cbn [arel rbind] in *; try contradiction; auto. destruct S as [-> S2]. auto. }
  destruct (w_call env w1 c) as [[x1 r1]| |], (w_call _ w2 c) as [[x2 r2]| |]; cbn [rbind]; try contradiction; auto.
  destruct KC as [-> KC]. pose proof (IH x1 x2 ev0 KC) as KI.
  destruct (w_calls env x1 cs) as [[y1 rs1]| |], (w_calls _ x2 cs) as [[y2 rs2]| |]; cbn [rbind]; try contradiction; auto.
  destruct KI as [-> KI]. auto.
Qed.
(** [like] with the libraries and the underlying writer answering the n-th call
    in the same way: the shift by 0 only makes the two environments equal up to
    n + 0 = n. *)
Theorem C23_fixed_strategy_ignored :
  forall env opts,
    like no_reset env (newWriter (opts ++ [WithStrategy FixedStrategy])) (shift_env env 0 0 0 0) (newWriter (opts ++ [WithStrategy DefaultStrategy])).
Proof.
  intros env opts cs Hcs.
  assert (HW : WR 0 0 0 0 [] [] (newWriter (opts ++ [WithStrategy FixedStrategy])) (newWriter (opts ++ [WithStrategy DefaultStrategy]))).
  { unfold newWriter. rewrite !opt_apply_app. destruct (opt_apply options_reset opts) as [f s c m w d t].
    unfold WR. cbn [w_state w_out wstate lvl opt_apply fold_left opt_apply1]. apply wrel_intro; cbn; auto.
    - repeat split; auto.
    - repeat split; auto.
    - split; lia.
    - unfold orel. cbn. repeat split; auto; congruence. }
  pose proof (like_nr env Hcs HW) as K.
  destruct (w_calls env _ cs) as [[x r1]| |], (w_calls (shift_env _ _ _ _ _) _ cs) as [[y r2]| |]; try contradiction; auto.
  destruct K as [-> K]. split; auto. split; [apply (wr_out K)|]. exists (map pre_of (w_events y)). split; auto. cbn [newWriter w_events map app]. apply (wr_ev K).
Qed.
Print Assumptions C08_reset_is_fresh.
