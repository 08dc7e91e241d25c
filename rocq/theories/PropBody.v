(** C79: raw, zlib and gzip Writers produce the same compressed data. *)
From Verif Require Import Base SpecChecksum SpecFormats SpecSession MChecksum MToken MCommon MWriter MSession PWriter PSession PInv PFormat PInst PropWriter PBody PropDivide Demo.

(** [out] is [raw] with a header in front of, and a footer behind, each stream. *)
Record wrapped := Wrapped { wr_header : list N; wr_data : list N; wr_footer : list N }.
Definition footer_size (f : format) : nat := match f with RawFormat => 0 | ZlibFormat => 4 | GZIPFormat => 8 | DefaultFormat => 0 end.
Definition envelope (o : options) (s : wrapped) : Prop :=
  (exists hd, Representable hd /\ StreamHeader o hd (wr_header s)) /\ length (wr_footer s) = footer_size (o_format o).
Definition whole (s : wrapped) : list N := wr_header s ++ wr_data s ++ wr_footer s.
Definition same_data (o : options) (raw out : list N) : Prop :=
  exists l, Forall (envelope o) l /\ raw = concat (map wr_data l) /\ out = concat (map whole l).
(** The same for streams the last of which is not finished yet. *)
Definition same_data_so_far (o : options) (raw out : list N) : Prop :=
  same_data o raw out \/
  exists l hd h cur, Forall (envelope o) l /\ Representable hd /\ StreamHeader o hd h /\
    raw = concat (map wr_data l) ++ cur /\ out = concat (map whole l) ++ h ++ cur.

Lemma hshape o h : Hshape o h -> exists hd, Representable hd /\ StreamHeader o hd h.
Proof.
  intros (hd & [_ HC] & HS). exists hd. split; auto. destruct (C13_set_header (newWriter []) hd) as [C _]. apply C. unfold w_SetHeader. unfold header_checked in HC. rewrite HC. reflexivity.
Qed.
Definition wr (s : seg) : wrapped := Wrapped (s_head s) (s_body s) (s_foot s).
Lemma shapes o l : Shapes o l -> Forall (envelope o) (map wr l).
Proof.
  intros H. unfold Shapes in H. apply Forall_map. eapply Forall_impl; [|exact H]. intros s [H1 H2]. split; [apply hshape; auto|]. unfold Fshape in H2. cbn [wr wr_footer]. rewrite H2. destruct (o_format o); reflexivity.
Qed.
Lemma bodies_wr l : concat (map wr_data (map wr l)) = bodies l.
Proof. unfold bodies. rewrite map_map. reflexivity. Qed.
Lemma wholes_wr l : concat (map whole (map wr l)) = wholes l.
Proof. unfold wholes. rewrite map_map. reflexivity. Qed.
Lemma rc_same o st x y : RC o st x y -> same_data o (sink (w_out x)) (sink (w_out y)).
Proof. intros (l & HL & _ & T1 & T2 & _). exists (map wr l). rewrite bodies_wr, wholes_wr. split; [apply shapes; auto|]. auto. Qed.
Lemma s_same o x y : S o x y -> same_data_so_far o (sink (w_out x)) (sink (w_out y)).
Proof.
  intros (st & _ & _ & H). assert (G : RC o st x y \/ RO o st x y) by (destruct st; auto). destruct G as [G|(l & h & HL & HS & G)]; [left; eapply rc_same; eauto|right].
  destruct (r_out G) as (_ & _ & _ & cur & X & Y). destruct (hshape HS) as (hd & H1 & H2). exists (map wr l), hd, h, cur. rewrite bodies_wr, wholes_wr. split; [apply shapes; auto|]. split; auto. split; auto. rewrite X, Y, <- app_assoc. auto.
Qed.

Definition with_format (f : format) (opts : list opt) : list opt := opts ++ [WithFormat f].
Lemma new_raw opts f : newWriter (with_format RawFormat opts) =
  let o := effective (with_format f opts) in Writer (oraw o) (compressConfig o) (lz_init (hybridOptions o) 0) (WSum 0 0 0 0) (WOut 0 0 [] [] 0 0 0 0 noStream None) 0 header0 0 0 [].
Proof.
  unfold newWriter, effective, with_format, opt_apply. rewrite !fold_left_app. cbn [fold_left]. destruct (fold_left opt_apply1 opts options_reset) as [f0 s c m w d t]. reflexivity.
Qed.

(** The same options (but for the format) and the same calls: both sessions
    return the same error, or crash in the same way, and if there is no error
    each stream of the one is the stream of the other with a header and a
    footer.  (The underlying writers accept everything.) *)
Theorem C79_same_compressed_data :
  forall env opts f ops, (forall n b, e_sink env n b = None) -> opts_ok opts -> Forall op_ok ops ->
    match w_session env (newWriter (with_format RawFormat opts)) ops, w_session env (newWriter (with_format f opts)) ops with
    | Ok (w1, e1), Ok (w2, e2) => e1 = e2 /\ (e2 = None -> same_data (effective (with_format f opts)) (sink (w_out w1)) (sink (w_out w2)))
    | Panic p, Panic q => p = q
    | NoFuel, NoFuel => True
    | _, _ => False
    end.
Proof.
  intros env opts f ops Q HO Hops. set (o := effective (with_format f opts)).
  assert (Hw : wopt_ok o) by (apply effective_ok; apply Forall_app; split; auto; repeat constructor).
  assert (HS : SL o (newWriter (with_format RawFormat opts)) (newWriter (with_format f opts))).
  { rewrite (new_raw opts f). split; [apply S_new; auto|split; discriminate]. }
  destruct (c_session Q Hw Hops HS) as [H1 H2]. destruct (w_session env _ ops) as [[x e]| |], (w_session env (newWriter (with_format f opts)) ops) as [[y e']| |]; cbn [rel_call] in *; try contradiction; auto.
  destruct H1 as [H1 ->]. split; auto. intros ->. eapply rc_same; eauto.
Qed.
(** ... and at any time before Close. *)
Theorem C79_same_compressed_data_so_far :
  forall env opts f ops, (forall n b, e_sink env n b = None) -> opts_ok opts -> Forall op_ok ops ->
    match w_run env (newWriter (with_format RawFormat opts)) ops, w_run env (newWriter (with_format f opts)) ops with
    | Ok (w1, e1), Ok (w2, e2) => e1 = e2 /\ same_data_so_far (effective (with_format f opts)) (sink (w_out w1)) (sink (w_out w2))
    | Panic p, Panic q => p = q
    | NoFuel, NoFuel => True
    | _, _ => False
    end.
Proof.
  intros env opts f ops Q HO Hops. set (o := effective (with_format f opts)).
  assert (Hw : wopt_ok o) by (apply effective_ok; apply Forall_app; split; auto; repeat constructor).
  assert (HS : SL o (newWriter (with_format RawFormat opts)) (newWriter (with_format f opts))).
  { rewrite (new_raw opts f). split; [apply S_new; auto|split; discriminate]. }
  pose proof (c_run Q Hw Hops HS) as H1. destruct (w_run env _ ops) as [[x e]| |], (w_run env (newWriter (with_format f opts)) ops) as [[y e']| |]; cbn [rel_step] in *; try contradiction; auto.
  destruct H1 as [H1 [-> _]]. split; auto. eapply s_same; eauto.
Qed.
(** A case: two streams, gzip with names. *)
Theorem C79_met : (forall n b, e_sink demo_wenv n b = None) /\ opts_ok [WithMemoryLevel 5] /\ Forall op_ok with_headers /\
  exists w, w_session demo_wenv (newWriter (with_format GZIPFormat [WithMemoryLevel 5])) with_headers = Ok (w, None) /\ length (sink (w_out w)) > 40.
Proof.
  split; [reflexivity|]. split; [repeat constructor|]. split; [repeat constructor; cbv; auto|]. eexists. split; [vm_compute; reflexivity|]. cbn. lia.
Qed.
