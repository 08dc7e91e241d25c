(** C91: the sync marker.  A SyncFlush or FullFlush ends the output with the
    bytes 00 00 FF FF, which protocols such as permessage-deflate (RFC 7692)
    take off each message before sending it and put back on receipt. *)
From Verif Require Import Base SpecChecksum SpecHuffman SpecDeflate SpecFormats SpecSession SpecEvents MChecksum PChecksum MToken MCommon MWriter MReader MSession SpecReader SpecLib PToken PHuffman PBits PActs PGram PInput POutput PDecode PDynamic PBlockDec PHeader PStream PFooter PThread PLoop PCompress PWriter PSession PInv PFormat PApi PInst PAccept PRead PFlushed PropWriter PropReader PropReader3 PropRound Demo PDemo PropReader2 PropFlushed PWFrame PMark.
From Verif Require PPrefix PropDurable.

(** The calls that compress one message, given in any number of pieces. *)
Definition message_ops (pieces : list (list N)) : list wop := map OWrite pieces ++ [OFlush SyncFlush].
Definition nonempty (pieces : list (list N)) : Prop := concat pieces <> [].
(** The first message is not empty. *)
Definition starts (ms : list (list (list N))) : Prop := match ms with [] => True | m :: _ => nonempty m end.

Section Framing.
Variable env : wenv.
Hypothesis HL : lib_ok env.
Notation eff o := (populateWriterDefaults (opt_apply options_reset o)).

Lemma run_J opts ops w : w_run env (newWriter opts) ops = Ok (w, None) -> PWFrame.J env (eff opts) true w.
Proof. intros E. pose proof (@PropDurable.j_run env (lib_bpb HL) (eff opts) true ops _ (J_new env true opts)) as K. rewrite E in K. exact K. Qed.
Lemma run_split opts a b w : w_run env (newWriter opts) (a ++ b) = Ok (w, None) ->
  exists w1, w_run env (newWriter opts) a = Ok (w1, None) /\ w_run env w1 b = Ok (w, None).
Proof. intros E. rewrite w_run_app in E. destruct (w_run env (newWriter opts) a) as [[w1 [e|]]| |]; cbn [rbind] in E; try discriminate E. eauto. Qed.
Lemma split_run a b w w1 x : w_run env w a = Ok (w1, None) -> w_run env w1 b = x -> w_run env w (a ++ b) = x.
Proof. intros E1 E2. rewrite w_run_app, E1. exact E2. Qed.

(** From any point of the session on: what is added ends with the marker. *)
Lemma marker_after opts ops0 ops1 p ops2 ft w0 w :
  p <> [] -> Forall stays ops2 -> marks ft ->
  w_run env (newWriter opts) ops0 = Ok (w0, None) -> w_run env w0 (ops1 ++ OWrite p :: ops2 ++ [OFlush ft]) = Ok (w, None) ->
  exists c, sink (w_out w) = sink (w_out w0) ++ c ++ marker.
Proof.
  intros HP HS HF E0 E. set (pre := sink (w_out w0)).
  assert (U0 : PPrefix.U pre w0) by (exists []; unfold pre; rewrite app_nil_r; reflexivity).
  rewrite w_run_app in E. pose proof (PPrefix.x_run env ops1 U0) as U1. destruct (w_run env w0 ops1) as [[w1 [e|]]| |] eqn:E1; cbn [rbind] in E; try discriminate E.
  assert (J1 := @run_J opts _ _ (@split_run _ _ _ _ _ E0 E1)). cbn [PPrefix.U1] in U1.
  cbn [w_run] in E. pose proof (@step_write env (lib_bpb HL) (eff opts) w1 p J1 HP) as O2. pose proof (@step_J env (lib_bpb HL) (eff opts) w1 (OWrite p) J1) as J2.
  pose proof (PPrefix.x_step env (OWrite p) U1) as U2. destruct (w_step env w1 (OWrite p)) as [[w2 [e|]]| |]; cbn [rbind] in E; try discriminate E.
  rewrite w_run_app in E. pose proof (PPrefix.x_run env ops2 U2) as U3. pose proof (@run_open env (lib_bpb HL) (eff opts) ops2 w2 J2 O2 HS) as O3.
  pose proof (@PropDurable.j_run env (lib_bpb HL) (eff opts) true ops2 w2 J2) as J3. destruct (w_run env w2 ops2) as [[w3 [e|]]| |]; cbn [rbind] in E; try discriminate E.
  cbn [w_run] in E. pose proof (@step_flush env (lib_bpb HL) (eff opts) pre w3 ft J3 U3 O3 HF) as M4.
  destruct (w_step env w3 (OFlush ft)) as [[w4 [e|]]| |]; cbn [rbind] in E; try discriminate E. injection E as <-. exact M4.
Qed.

(** ** A flush of an open stream ends with 00 00 FF FF *)
Theorem C91_sync_marker :
  forall opts ops0 p ops1 ft w, p <> [] -> ~ In (OFlush FinishFlush) ops1 -> ft = SyncFlush \/ ft = FullFlush ->
    w_run env (newWriter opts) (ops0 ++ OWrite p :: ops1 ++ [OFlush ft]) = Ok (w, None) ->
    exists body, sink (w_out w) = body ++ [0; 0; 255; 255]%N.
Proof.
  intros opts ops0 p ops1 ft w HP HN HF E.
  assert (HS : Forall stays ops1) by (apply Forall_forall; intros o HI ->; apply HN, HI).
  destruct (@marker_after opts [] ops0 p ops1 ft (newWriter opts) w HP HS HF eq_refl E) as [c H]. exists c. exact H.
Qed.

Lemma pieces_split pieces : nonempty pieces -> exists a p b, pieces = a ++ p :: b /\ p <> [].
Proof.
  unfold nonempty. induction pieces as [|q r IH]; intros H; [contradiction H; reflexivity|]. destruct q as [|x q].
  - destruct (IH H) as [a [p [b [-> P]]]]. exists ([] :: a), p, b. split; auto.
  - exists [], (x :: q), r. split; [reflexivity|discriminate].
Qed.
Lemma stays_writes l : Forall stays (map OWrite l).
Proof. induction l; constructor; auto. discriminate. Qed.
Lemma message_data l : ops_data (message_ops l) = concat l.
Proof. unfold message_ops, ops_data. rewrite flat_map_app. cbn. rewrite app_nil_r. induction l as [|p l IH]; cbn; [reflexivity|]. rewrite IH. reflexivity. Qed.
Lemma messages_data ms : ops_data (flat_map message_ops ms) = concat (map (@concat N) ms).
Proof.
  induction ms as [|m ms IH]; [reflexivity|]. cbn [flat_map map concat]. rewrite <- IH, <- message_data. unfold ops_data. apply flat_map_app.
Qed.
Lemma no_finish ms : ~ In (OFlush FinishFlush) (flat_map message_ops ms).
Proof.
  intros H. apply in_flat_map in H. destruct H as [m [_ H]]. unfold message_ops in H. apply in_app_or in H. destruct H as [H|[H|[]]]; [|discriminate H].
  apply in_map_iff in H. destruct H as [p [H _]]. discriminate H.
Qed.
Lemma messages_ok ms : Forall (Forall bytes_ok) ms -> Forall op_ok (flat_map message_ops ms).
Proof.
  induction 1 as [|m ms H _ IH]; cbn [flat_map]; [constructor|]. apply Forall_app. split; auto. unfold message_ops. apply Forall_app. split.
  - clear - H. induction H; constructor; auto.
  - repeat constructor.
Qed.

(** After a non-empty Write the stream stays open. *)
Lemma opened opts ops1 p ops2 w : p <> [] -> Forall stays ops2 ->
  w_run env (newWriter opts) (ops1 ++ OWrite p :: ops2) = Ok (w, None) -> w_state w = openStream.
Proof.
  intros HP HS E. destruct (@run_split opts _ _ _ E) as [w1 [E1 E2]]. pose proof (@run_J opts _ _ E1) as J1. cbn [w_run] in E2.
  pose proof (@step_write env (lib_bpb HL) (eff opts) w1 p J1 HP) as O2. pose proof (@step_J env (lib_bpb HL) (eff opts) w1 (OWrite p) J1) as J2.
  destruct (w_step env w1 (OWrite p)) as [[w2 [e|]]| |]; cbn [rbind] in E2; try discriminate E2.
  pose proof (@run_open env (lib_bpb HL) (eff opts) ops2 w2 J2 O2 HS) as O3. rewrite E2 in O3. exact O3.
Qed.
Lemma marker_open opts ops0 ops2 ft w0 w : w_state w0 = openStream -> Forall stays ops2 -> marks ft ->
  w_run env (newWriter opts) ops0 = Ok (w0, None) -> w_run env w0 (ops2 ++ [OFlush ft]) = Ok (w, None) ->
  exists c, sink (w_out w) = sink (w_out w0) ++ c ++ marker.
Proof.
  intros O2 HS HF E0 E. set (pre := sink (w_out w0)).
  assert (U0 : PPrefix.U pre w0) by (exists []; unfold pre; rewrite app_nil_r; reflexivity). pose proof (@run_J opts _ _ E0) as J2.
  rewrite w_run_app in E. pose proof (PPrefix.x_run env ops2 U0) as U3. pose proof (@run_open env (lib_bpb HL) (eff opts) ops2 w0 J2 O2 HS) as O3.
  pose proof (@PropDurable.j_run env (lib_bpb HL) (eff opts) true ops2 w0 J2) as J3. destruct (w_run env w0 ops2) as [[w3 [e|]]| |]; cbn [rbind] in E; try discriminate E.
  cbn [w_run] in E. pose proof (@step_flush env (lib_bpb HL) (eff opts) pre w3 ft J3 U3 O3 HF) as M4.
  destruct (w_step env w3 (OFlush ft)) as [[w4 [e|]]| |]; cbn [rbind] in E; try discriminate E. injection E as <-. exact M4.
Qed.
Lemma stays_messages ms : Forall stays (flat_map message_ops ms).
Proof. apply Forall_forall. intros o HI ->. exact (@no_finish ms HI). Qed.

(** The output is one chunk per message, each ending in the marker. *)
Lemma chunks opts : forall ms w, starts ms -> w_run env (newWriter opts) (flat_map message_ops ms) = Ok (w, None) ->
  exists cs, length cs = length ms /\ sink (w_out w) = concat (map (fun c => c ++ marker) cs) /\
    forall k, k <= length ms -> exists wk, w_run env (newWriter opts) (flat_map message_ops (firstn k ms)) = Ok (wk, None) /\
      sink (w_out wk) = concat (map (fun c => c ++ marker) (firstn k cs)).
Proof.
  induction ms as [|m ms IH] using rev_ind; intros w HN E.
  - exists []. cbn in E. injection E as <-. split; [reflexivity|]. split; [reflexivity|]. intros k Hk. exists (newWriter opts). destruct k; cbn in Hk; [|lia]. split; reflexivity.
  - rename E into EE. pose proof EE as E. rewrite flat_map_app in E. cbn [flat_map] in E. rewrite app_nil_r in E.
    destruct (@run_split _ _ _ _ E) as [w0 [E0 E1]].
    assert (HN' : starts ms) by (destruct ms; [exact I|exact HN]). destruct (IH w0 HN' E0) as [cs [L [SK K]]].
    assert (HC : exists c, sink (w_out w) = sink (w_out w0) ++ c ++ marker).
    { unfold message_ops in E1. destruct ms as [|m1 r].
      - cbn [app starts] in HN. destruct (pieces_split HN) as [a [p [b [-> P]]]]. rewrite map_app in E1. cbn [map] in E1. rewrite <- app_assoc in E1. cbn [app] in E1.
        pose proof (stays_writes b) as HSW. exact (@marker_after opts [] (map OWrite a) p (map OWrite b) SyncFlush w0 w P HSW (or_introl eq_refl) E0 E1).
      - cbn [app starts] in HN. destruct (pieces_split HN) as [a [p [b [-> P]]]].
        assert (O : w_state w0 = openStream).
        { apply (@opened opts (map OWrite a) p (map OWrite b ++ [OFlush SyncFlush] ++ flat_map message_ops r) w0 P).
          - apply Forall_app. split; [apply stays_writes|]. constructor; [discriminate|apply stays_messages].
          - rewrite <- E0. f_equal. cbn [flat_map]. unfold message_ops at 2. rewrite map_app. cbn [map]. rewrite <- !app_assoc. reflexivity. }
        pose proof (stays_writes m) as HSW. exact (@marker_open opts _ (map OWrite m) SyncFlush w0 w O HSW (or_introl eq_refl) E0 E1). }
    destruct HC as [c C].
    exists (cs ++ [c]). split; [rewrite !app_length; cbn [length]; lia|]. split.
    { rewrite map_app, concat_app, C, SK. cbn. rewrite app_nil_r. reflexivity. }
    intros k Hk. rewrite app_length in Hk. cbn [length] in Hk. destruct (Nat.eq_dec k (S (length ms))) as [->|NE].
    + exists w. rewrite !firstn_all2; [|rewrite app_length; cbn [length]; lia|rewrite app_length; cbn [length]; lia]. split; auto.
      rewrite map_app, concat_app, C, SK. cbn. rewrite app_nil_r. reflexivity.
    + assert (KK : k <= length ms) by lia. destruct (K k KK) as [wk [K1 K2]]. exists wk. rewrite !firstn_app.
      replace (k - length ms) with 0 by lia. replace (k - length cs) with 0 by lia. cbn [firstn]. rewrite !app_nil_r. auto.
Qed.
End Framing.

(** ** Messages
    Every message is compressed to a chunk that ends in the marker; with the
    markers taken off and put back, a receiver who has got the first k chunks
    reads exactly the first k messages. *)
Theorem C91_message_framing :
  forall wenv renv wopts ropts ms w,
    lib_ok wenv -> rlib_ok renv -> opts_ok wopts -> opts_ok ropts -> matching wopts ropts ->
    Forall (Forall bytes_ok) ms -> starts ms ->
    w_run wenv (newWriter wopts) (flat_map message_ops ms) = Ok (w, None) ->
    exists sent, length sent = length ms /\ sink (w_out w) = concat (map (fun c => c ++ [0; 0; 255; 255]%N) sent) /\
      forall k src, k <= length ms -> good_src src -> ~ is_corrupt (src_end src) ->
        src_bytes src = concat (map (fun c => c ++ [0; 0; 255; 255]%N) (firstn k sent)) -> k <> 0 ->
        exists e, decompress renv ropts src = Ok (concat (map (@concat N) (firstn k ms)), Some e).
Proof.
  intros wenv renv wopts ropts ms w HL HRL HO HRO HM HB HN E. destruct (@chunks wenv HL wopts ms w HN E) as [cs [L [SK K]]].
  exists cs. split; [exact L|]. split; [exact SK|]. intros k src Hk HS NC EB NZ. destruct (K k Hk) as [wk [K1 K2]].
  assert (HP : exists ms' m, firstn k ms = ms' ++ [m]).
  { assert (NE : firstn k ms <> []) by (destruct ms as [|m ms]; [cbn in Hk; lia|destruct k; [lia|discriminate]]). exists (removelast (firstn k ms)), (last (firstn k ms) []). apply app_removelast_last. exact NE. }
  destruct HP as [ms' [m EF]]. rewrite EF in *. rewrite flat_map_app in K1. cbn [flat_map] in K1. rewrite app_nil_r in K1. unfold message_ops at 2 in K1. rewrite app_assoc in K1.
  assert (HB' : Forall (Forall bytes_ok) (ms' ++ [m])) by (rewrite <- EF; apply Forall_forall; intros x HX; rewrite Forall_forall in HB; apply HB; rewrite <- (firstn_skipn k ms); apply in_or_app; left; exact HX).
  assert (OK1 : Forall op_ok (flat_map message_ops ms' ++ map OWrite m)).
  { pose proof (messages_ok HB') as H. rewrite flat_map_app in H. cbn [flat_map] in H. rewrite app_nil_r in H. unfold message_ops at 2 in H. rewrite app_assoc in H. apply Forall_app in H. apply H. }
  destruct (@C70_crash_after_flush wenv renv wopts ropts (flat_map message_ops ms' ++ map OWrite m) SyncFlush wk src HL HRL HO HRO OK1) as [e D]; auto.
  - left. reflexivity.
  - right. intros H. apply in_app_or in H. destruct H as [H|H]; [exact (@no_finish ms' H)|]. apply in_map_iff in H. destruct H as [p [H _]]. discriminate H.
  - rewrite EB, K2. reflexivity.
  - exists e. rewrite D. do 2 f_equal. rewrite map_app, concat_app. unfold ops_data. rewrite flat_map_app. f_equal; [apply messages_data|].
    cbn. rewrite app_nil_r. clear. induction m as [|p l IH]; cbn; [reflexivity|]. rewrite IH. reflexivity.
Qed.

(** ** The hypotheses are met *)
Definition wo : list opt := [WithFormat RawFormat; WithMemoryLevel 7].
Definition two : list (list (list N)) := [[[104; 101]; []; [108; 108; 111]]; [[104; 101; 108; 108; 111]]; []]%N.
Definition sent_two : list N := match w_run demo_wenv (newWriter wo) (flat_map message_ops two) with Ok (w, _) => sink (w_out w) | _ => [] end.
Example C91_hypotheses_met :
  lib_ok demo_wenv /\ rlib_ok demo_renv /\ matching wo raw_opts /\ Forall (Forall bytes_ok) two /\ starts two /\
  exists w, w_run demo_wenv (newWriter wo) (flat_map message_ops two) = Ok (w, None).
Proof.
  split; [apply demo_lib_ok|]. split; [apply demo_rlib_ok|]. split; [repeat split; vm_compute; discriminate|].
  split; [repeat constructor|]. split; [discriminate|]. eexists. vm_compute. reflexivity.
Qed.
(** Every chunk ends in the marker - that of the empty message too - and the
    receiver reads the messages. *)
Example C91_met_bytes : exists c1 c2, sent_two = (c1 ++ marker) ++ (c2 ++ marker) ++ ([0%N] ++ marker) /\ c1 <> [] /\ c2 <> [].
Proof. exists (firstn 11 sent_two), (firstn 11 (skipn 15 sent_two)). vm_compute. split; [reflexivity|]. split; discriminate. Qed.
Example C91_met_read : exists e, decompress demo_renv raw_opts [(sent_two, None)] = Ok ([104; 101; 108; 108; 111; 104; 101; 108; 108; 111]%N, Some e).
Proof. eexists. vm_compute. reflexivity. Qed.
Print Assumptions C91_sync_marker.
Print Assumptions C91_message_framing.
