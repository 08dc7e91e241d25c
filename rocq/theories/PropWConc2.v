(** C61 continued: concurrent Writes come out whole; C62: tracers that call back. *)
From Coq Require Import Permutation.
From Verif Require Import Base MToken MCommon MWriter MReader MCalls MWConc SpecSession SpecReader SpecLib MSession PInst PRead PropWConc PropReader PropRound Demo PDemo PropReader3.

(** ** Concurrent Writes *)
(** The calls made, in the order in which they were made. *)
Definition calls_made (tr : list wseen) : list (nat * wcall) := flat_map (fun x => match x with Called i c => [(i, c)] | _ => [] end) tr.
(** A result that reports no error (SetHeader's own error does not count). *)
Definition no_error (r : wreply) : Prop := match r with WR (RWrite _ (Some _)) | WR (RError (Some _)) => False | _ => True end.
Definition wops (c : wcall) : list wop :=
  match c with WDo (KWrite p) => [OWrite p] | WDo (KFlush f) => [OFlush f] | WDo (KSetHeader h) => [OSetHeader h] | _ => [] end.
Definition in_session (c : wcall) : Prop := match c with WDo KClose | WDo (KReset _) => False | _ => True end.

Lemma made_in tr i c : In (i, c) (calls_made tr) <-> In (Called i c) tr.
Proof.
  unfold calls_made. rewrite in_flat_map. split.
  - intros ([j d|j r] & H & K); cbn in K; [destruct K as [K|[]]; injection K as -> ->; auto|destruct K].
  - intros H. exists (Called i c). cbn. auto.
Qed.
Lemma made_seq reentrant env w0 s : wruns reentrant env (wfresh w0) s -> map fst (calls_made (wtrace s)) = seq 0 (length (wpcs s)).
Proof.
  intros H. remember (wfresh w0) as s0. induction H as [s|s1 s2 s3 H IH X]; subst; [reflexivity|].
  specialize (IH eq_refl). destruct X as [s c D|s s' i X].
  - destruct s as [mu w l tr d]. cbn in *. unfold calls_made in *. rewrite flat_map_app, map_app, IH, app_length. cbn. rewrite Nat.add_1_r, seq_S. reflexivity.
  - destruct s as [mu w l tr [d|]]; [discriminate|]. cbn [wstep wpcs wtrace] in *.
    destruct (nth_error l i) as [[c|c|c|c v|r|r|r]|]; try discriminate.
    + destruct (rejected c); [|destruct mu; [discriminate|]]; injection X as <-; cbn; rewrite wupd_len; auto.
    + injection X as <-; cbn; rewrite wupd_len; auto.
    + destruct mu; [discriminate|]. injection X as <-; cbn; rewrite wupd_len; auto.
    + destruct (alone env v c) as [[w' r]|p|]; [| |discriminate]; injection X as <-; cbn; rewrite ?wupd_len; auto.
    + injection X as <-; cbn; rewrite wupd_len; auto.
    + injection X as <-; cbn; rewrite wupd_len. unfold calls_made. rewrite flat_map_app. cbn. rewrite app_nil_r. auto.
Qed.
Lemma obo_run env cs : forall w w' rs, Forall in_session cs -> Forall no_error rs -> one_by_one env w cs = Ok (w', rs) ->
  w_run env w (flat_map wops cs) = Ok (w', None).
Proof.
  induction cs as [|c cs IH]; intros w w' rs HC HR H; cbn [one_by_one flat_map] in *.
  - injection H as <- _. reflexivity.
  - apply Forall_cons_iff in HC. destruct HC as [HC1 H2]. destruct (alone env w c) as [[w1 x]| |] eqn:A; cbn [rbind] in H; try discriminate.
    destruct (one_by_one env w1 cs) as [[w2 xs]| |] eqn:E; cbn [rbind] in H; try discriminate. injection H as <- <-.
    apply Forall_cons_iff in HR. destruct HR as [HX HR]. specialize (IH _ _ _ H2 HR E).
    destruct c as [[p|ft|h| |o]|g]; try contradiction; cbn [wops app alone w_call w_run w_step] in *.
    + destruct (w_Write env w p) as [[wa [n e]]| |]; cbn [rbind] in *; try discriminate. injection A as <- <-. destruct e; [contradiction|]. exact IH.
    + destruct (w_Flush env w ft) as [[wa e]| |]; cbn [rbind] in *; try discriminate. injection A as <- <-. destruct e; [contradiction|]. exact IH.
    + destruct (w_SetHeader w h) as [wa b]; cbn [rbind fst] in *. injection A as <- <-. exact IH.
    + injection A as <- <-. exact IH.
Qed.
Lemma obo_split env a : forall w b w2 rs, one_by_one env w (a ++ b) = Ok (w2, rs) ->
  exists w1 r1 r2, one_by_one env w a = Ok (w1, r1) /\ one_by_one env w1 b = Ok (w2, r2) /\ rs = r1 ++ r2.
Proof.
  induction a as [|c a IH]; intros w b w2 rs H; cbn [one_by_one app] in *; [exists w, [], rs; auto|].
  destruct (alone env w c) as [[wa x]| |]; cbn [rbind] in *; try discriminate.
  destruct (one_by_one env wa (a ++ b)) as [[wb xs]| |] eqn:E; cbn [rbind] in *; try discriminate. injection H as <- <-.
  destruct (IH _ _ _ _ E) as (w1 & r1 & r2 & -> & E2 & ->). exists w1, (x :: r1), r2. auto.
Qed.
Lemma before_not_last {A} (l : list A) x y : NoDup (l ++ [x]) -> before (l ++ [x]) x y -> False.
Proof.
  intros ND (a & b & c & E). destruct (@exists_last _ (y :: c)) as [c' [z EZ]]; [discriminate|].
  rewrite app_comm_cons, EZ in E. replace (a ++ (x :: b) ++ c' ++ [z]) with ((a ++ (x :: b) ++ c') ++ [z]) in E by (rewrite !app_assoc; reflexivity).
  apply app_inj_tail in E. destruct E as [E <-]. apply NoDup_remove_2 in ND. rewrite app_nil_r in ND. apply ND. rewrite E. apply in_or_app. right. left. auto.
Qed.

(** All calls have returned without error, none was Reset, and call number [k],
    a Close, is the only one and was made after all others had returned. *)
Record Finished (s : wst) (k : nat) : Prop := {
  f_alive : wdead s = None;
  f_returned : forall i c, In (Called i c) (wtrace s) -> exists r, In (Returned i r) (wtrace s) /\ no_error r;
  f_close : In (Called k (WDo KClose)) (wtrace s);
  f_others : forall i c, In (Called i c) (wtrace s) -> i <> k -> in_session c /\ follows (wtrace s) i k }.
(** What the Writer has then done is what it does when one goroutine makes the
    same calls in some order. *)
Theorem C61_session :
  forall reentrant env opts s k, written_by reentrant env opts s -> Finished s k ->
    exists ops, Permutation ops (flat_map wops (map snd (calls_made (wtrace s)))) /\ w_session env (newWriter opts) ops = Ok (wsh s, None).
Proof.
  intros reentrant env opts s k R [FA FR FC FO]. destruct (C61_concurrent_calls R) as (lin & [X1 X2 X3 X4 X5] & _).
  pose proof (made_seq R) as MS.
  assert (ND : NoDup (calls_made (wtrace s))) by (apply (NoDup_map_inv fst); rewrite MS; apply seq_NoDup).
  assert (UQ : forall i c c', In (Called i c) (wtrace s) -> In (Called i c') (wtrace s) -> c = c').
  { intros i c c' H H'. apply made_in in H. apply made_in in H'. assert (NF : NoDup (map fst (calls_made (wtrace s)))) by (rewrite MS; apply seq_NoDup).
    clear - H H' NF. induction (calls_made (wtrace s)) as [|[j d] l IH]; [destruct H|]. cbn in NF. inversion NF; subst.
    destruct H as [H|H], H' as [H'|H'].
    - congruence.
    - injection H as -> ->. exfalso. apply H2. apply in_map_iff. exists (i, c'). auto.
    - injection H' as -> ->. exfalso. apply H2. apply in_map_iff. exists (i, c). auto.
    - auto. }
  assert (PM : Permutation (map fst lin) (calls_made (wtrace s))).
  { apply NoDup_Permutation; auto.
    - apply (NoDup_map_inv fst). rewrite map_map. exact X1.
    - intros [i c]. rewrite made_in. split.
      + intros H. apply in_map_iff in H. destruct H as ([[j d] r] & E & H). cbn in E. injection E as -> ->. eauto.
      + intros H. destruct (FR _ _ H) as (r & HR & _). destruct (X3 _ _ HR) as (c' & HL & HC). rewrite (UQ _ _ _ H HC). apply in_map_iff. exists (i, c', r). auto. }
  (* Close is the last one *)
  assert (KL : exists lin' r, lin = lin' ++ [(k, WDo KClose, r)]).
  { assert (KI : exists r, In (k, WDo KClose, r) lin).
    { assert (H : In (k, WDo KClose) (map fst lin)) by (rewrite PM; apply made_in; auto). apply in_map_iff in H. destruct H as ([[j d] r] & E & H). cbn in E. injection E as -> ->. eauto. }
    destruct KI as [r KI]. destruct (@exists_last _ lin) as [lin' [[[j d] r'] E]]; [intros ->; destruct KI|].
    destruct (Nat.eq_dec j k) as [->|N].
    - exists lin', r'. rewrite E. assert (HD : In (Called k d) (wtrace s)) by (apply (X4 k d r'); rewrite E; apply in_or_app; right; left; auto). rewrite (UQ _ _ _ HD FC). reflexivity.
    - exfalso. assert (HJ : In (Called j d) (wtrace s)) by (apply (X4 j d r'); rewrite E; apply in_or_app; right; left; auto).
      destruct (FO _ _ HJ N) as [_ F]. assert (HK : In k (map (fun x => fst (fst x)) lin)) by (apply in_map_iff; exists (k, WDo KClose, r); auto).
      pose proof (X5 _ _ F HK) as B. rewrite E, map_app in B, X1. cbn [map fst] in B, X1. exact (before_not_last X1 B). }
  destruct KL as (lin' & r & ->). rewrite map_app in X2. cbn [map fst snd] in X2.
  exists (flat_map wops (map (fun x => snd (fst x)) lin')). split.
  - assert (P2 : Permutation (map (fun x => snd (fst x)) (lin' ++ [(k, WDo KClose, r)])) (map snd (calls_made (wtrace s)))).
    { rewrite <- PM, map_map. reflexivity. }
    rewrite <- P2, map_app, flat_map_app. cbn. rewrite app_nil_r. reflexivity.
  - assert (NE : Forall no_error (map snd (lin' ++ [(k, WDo KClose, r)]))).
    { apply Forall_map. apply Forall_forall. intros [[i c] x] H. cbn. destruct (FR i c (X4 _ _ _ H)) as (x' & HR & NX). destruct (X3 _ _ HR) as (c' & HL & _).
      assert (x = x'); [|congruence]. clear - X1 H HL. induction (lin' ++ [(k, WDo KClose, r)]) as [|[[a b] d] l IH]; [destruct H|]. cbn in X1. inversion X1; subst.
      destruct H as [H|H], HL as [HL|HL].
      - congruence.
      - injection H as -> -> ->. exfalso. apply H2. apply in_map_iff. exists (i, c', x'). auto.
      - injection HL as -> -> ->. exfalso. apply H2. apply in_map_iff. exists (i, c, x). auto.
      - auto. }
    rewrite map_app in X2, NE. cbn [map snd] in X2, NE. apply Forall_app in NE. destruct NE as [NE1 NE2].
    assert (IS : Forall in_session (map (fun x => snd (fst x)) lin')).
    { apply Forall_map. apply Forall_forall. intros [[i c] x] H. cbn. apply (FO i c).
      - apply (X4 i c x). apply in_or_app. auto.
      - intros ->. rewrite map_app in X1. cbn in X1. apply NoDup_remove_2 in X1. apply X1. rewrite app_nil_r. apply in_map_iff. exists (k, c, x). auto. }
    destruct (@obo_split env _ _ _ _ _ X2) as (w1 & r1 & r2 & E & E2 & ER). cbn [one_by_one alone w_call rbind] in E2.
    destruct (w_Close env w1) as [[w2 e]| |] eqn:EC; cbn [rbind] in E2; try discriminate. injection E2 as -> <-.
    apply app_inj_tail in ER. destruct ER as [<- ->]. inversion NE2; subst. destruct e; [contradiction|].
    unfold w_session. rewrite (@obo_run env _ _ _ _ IS NE1 E). cbn [rbind]. exact EC.
Qed.
(** So, in particular, what different goroutines have passed to Write comes out
    of a matching Reader one after the other, each whole. *)
Definition writes_made (tr : list wseen) : list (list N) := flat_map (fun x => match snd x with WDo (KWrite p) => [p] | _ => [] end) (calls_made tr).
Definition call_bytes (c : wcall) : Prop := Forall op_ok (wops c).
Theorem C61_writes_come_out_whole :
  forall reentrant wenv renv wopts ropts s k src, written_by reentrant wenv wopts s -> Finished s k ->
    lib_ok wenv -> rlib_ok renv -> opts_ok wopts -> opts_ok ropts -> Forall (fun x => call_bytes (snd x)) (calls_made (wtrace s)) ->
    matching wopts ropts -> polite_src src -> detached_src src -> src_bytes src = sink (w_out (wsh s)) ->
    exists ps, Permutation ps (writes_made (wtrace s)) /\ decompress renv ropts src = Ok (concat ps, Some (src_end src)).
Proof.
  intros reentrant wenv renv wopts ropts s k src R F HL HRL HO HRO HC M HP HD EB.
  destruct (C61_session R F) as (ops & PM & E).
  assert (OK : Forall op_ok ops).
  { eapply Permutation_Forall; [symmetry; exact PM|]. apply Forall_flat_map. apply Forall_map. exact HC. }
  exists (flat_map (fun o => match o with OWrite p => [p] | _ => [] end) ops). split.
  - rewrite PM. unfold writes_made. clear. induction (calls_made (wtrace s)) as [|[i c] l IH]; cbn; auto. rewrite flat_map_app.
    apply Permutation_app; auto. destruct c as [[| | | |]|]; reflexivity.
  - rewrite (C01_round_trip HL HRL HO HRO OK E M HP (or_introl HD) EB). do 3 f_equal. unfold ops_data.
    clear. induction ops as [|[| |] ops IH]; cbn; auto. now rewrite IH.
Qed.

(** ** C62: tracers that call a method of the Writer they observe *)
Lemma called_once reentrant env w0 s i c c' : wruns reentrant env (wfresh w0) s -> In (Called i c) (wtrace s) -> In (Called i c') (wtrace s) -> c = c'.
Proof.
  intros R H H'. apply made_in in H. apply made_in in H'. assert (NF : NoDup (map fst (calls_made (wtrace s)))) by (rewrite (made_seq R); apply seq_NoDup).
  clear - H H' NF. induction (calls_made (wtrace s)) as [|[j d] l IH]; [destruct H|]. cbn in NF. inversion NF; subst.
  destruct H as [H|H], H' as [H'|H'].
  - congruence.
  - injection H as -> ->. exfalso. apply H2. apply in_map_iff. exists (i, c'). auto.
  - injection H' as -> ->. exfalso. apply H2. apply in_map_iff. exists (i, c). auto.
  - auto.
Qed.
Lemma runs_trans reentrant env a b c : wruns reentrant env a b -> wruns reentrant env b c -> wruns reentrant env a c.
Proof. intros H K. induction K; auto. exact (wr_step (IHK H) H0). Qed.
Lemma tracer_alive reentrant env w0 s i c : wruns reentrant env (wfresh w0) s -> nth_error (wpcs s) i = Some (WTracer c) -> wdead s = None.
Proof.
  intros R E. remember (wfresh w0) as s0. destruct R as [x|s1 s2 s3 R X]; subst; [reflexivity|].
  destruct X as [x d D|x x' k X]; [destruct x; exact D|].
  pose proof (runs_inv R) as J. destruct x as [mu w l tr [dd|]]; [discriminate|]. cbn [wdead] in J. destruct J as [lin J].
  destruct (cinv_step J X) as [[D _]|(d & p & Ex & _ & _)]; auto. exfalso. subst x'. cbn [wpcs] in E. cbn [wstep wmu wsh wpcs wtrace] in X.
  destruct (nth_error l k) as [pk|] eqn:EK; [|discriminate]. destruct pk as [d'|d'|d'|d' v|r|r|r]; try discriminate.
  - destruct (rejected d'); [discriminate|]. destruct mu; discriminate.
  - destruct mu; discriminate.
  - pose proof (c_one J E EK eq_refl eq_refl). subst. congruence.
Qed.
(** Once a tracer has called a method of the Writer from within a call, that call
    never returns, and no call made from then on ever does, except SetHeader calls
    whose header is rejected. *)
Theorem C62_reentrant_tracer_blocks_forever :
  forall reentrant env opts s i c s', written_by reentrant env opts s -> nth_error (wpcs s) i = Some (WTracer c) -> wruns reentrant env s s' ->
    nth_error (wpcs s') i = Some (WTracer c) /\
    forall j d r, In (Called j d) (wtrace s') -> length (wpcs s) <= j -> rejected d = false -> ~ In (Returned j r) (wtrace s').
Proof.
  intros reentrant env opts s i c s' R E H.
  assert (K : wdead s' = None /\ nth_error (wpcs s') i = Some (WTracer c) /\ (forall j p, length (wpcs s) <= j -> nth_error (wpcs s') j = Some p ->
    (exists d, p = WStart d) \/ exists d, rejected d = true /\ In (Called j d) (wtrace s'))).
  { pose proof (tracer_alive R E) as D.
    remember s as sx eqn:EQ in H. revert EQ. induction H as [x|x1 x2 x3 H IH X]; intros ->.
    - split; auto. split; auto. intros j p L Q. exfalso. assert (j < length (wpcs s)) by (apply nth_error_Some; congruence). lia.
    - destruct (IH eq_refl) as (D2 & E2 & N2). clear IH. pose proof (runs_inv (runs_trans R H)) as J. rewrite D2 in J. destruct J as [lin J].
      pose proof (c_mu J E2 eq_refl) as M. destruct X as [x d D3|x x' k X].
      + destruct x as [mu w l tr dd]. cbn in *. split; auto. split.
        * rewrite nth_error_app1; auto. apply nth_error_Some. congruence.
        * intros j p L Q. apply nth_app_lt in Q. destruct Q as [Q|[-> ->]]; [|eauto]. destruct (N2 _ _ L Q) as [?|(d' & ? & ?)]; auto. right. exists d'. split; auto. apply in_or_app. auto.
      + assert (HC : forall p q, nth_error (wpcs x) k = Some p -> holds p = true -> nth_error (wpcs x) i = Some q -> holds q = true -> k = i) by (intros; eapply c_one; eauto).
        pose proof (fun p d => c_called J (i:=k) (p:=p) (c:=d)) as CC.
        destruct x as [mu w l tr dd]. cbn in D2, E2, N2, M, HC, CC. subst mu dd. cbn [wstep] in X.
        destruct (nth_error l k) as [pk|] eqn:EK; [|discriminate].
        assert (KI : k = i -> False). { intros ->. rewrite E2 in EK. injection EK as <-. discriminate X. }
        destruct pk as [d|d|d|d v|r|r|r]; try (exfalso; apply KI; eapply HC; eauto; reflexivity); try discriminate.
        * destruct (rejected d) eqn:RJ; [|discriminate]. injection X as <-. cbn [wdead wpcs wtrace]. split; auto. split; [rewrite wupd_other; auto|].
          intros j p L Q. destruct (Nat.eq_dec k j) as [<-|NE]; [|rewrite wupd_other in Q by auto; apply N2; auto].
          right. exists d. split; auto. eapply CC; eauto; reflexivity.
        * injection X as <-. cbn [wdead wpcs wtrace]. split; auto. split; [rewrite wupd_other; auto|].
          intros j p L Q. destruct (Nat.eq_dec k j) as [<-|NE].
          -- destruct (N2 _ _ L EK) as [[d Z]|(d & Z1 & Z2)]; [discriminate|]. right. exists d. split; auto. apply in_or_app; auto.
          -- rewrite wupd_other in Q by auto. destruct (N2 _ _ L Q) as [?|(d & ? & ?)]; auto. right. exists d. split; auto. apply in_or_app; auto. }
  destruct K as (D & E' & N). split; auto. intros j d r C L RJ HR.
  pose proof (runs_trans R H) as R'. pose proof (runs_inv R') as J. rewrite D in J. destruct J as [lin J].
  pose proof (c_ret J HR) as Q. destruct (N _ _ L Q) as [[d' Z]|(d' & Z1 & Z2)]; [discriminate|].
  rewrite (called_once R' C Z2) in RJ. congruence.
Qed.

(** *** Concrete runs *)
Inductive wmove := Make (c : wcall) | Run (i : nat).
Fixpoint moves reentrant env (s : wst) (l : list wmove) : option wst :=
  match l with
  | [] => Some s
  | Make c :: r => match wdead s with None => moves reentrant env (wstart s c) r | _ => None end
  | Run i :: r => match wstep reentrant env s i with Some s' => moves reentrant env s' r | None => None end
  end.
Lemma moves_runs reentrant env l : forall s s', moves reentrant env s l = Some s' -> wruns reentrant env s s'.
Proof.
  induction l as [|[c|i] l IH]; intros s s' H; cbn in H.
  - injection H as <-. apply wr_refl.
  - destruct (wdead s) eqn:D; [discriminate|]. eapply runs_trans; [|apply IH; exact H]. eapply wr_step; [apply wr_refl|]. apply wn_call. exact D.
  - destruct (wstep reentrant env s i) as [s1|] eqn:E; [|discriminate]. eapply runs_trans; [|apply IH; exact H]. eapply wr_step; [apply wr_refl|]. eapply wn_step. exact E.
Qed.
Theorem C62_refuted :
  exists s, written_by (fun _ c => match c with WDo (KWrite _) => true | _ => false end) demo_wenv [] s /\
    wtrace s = [Called 0 (WDo (KWrite [97%N]))] /\
    forall s', wruns (fun _ c => match c with WDo (KWrite _) => true | _ => false end) demo_wenv s s' -> forall r, ~ In (Returned 0 r) (wtrace s').
Proof.
  eexists. split; [apply (@moves_runs _ _ [Make (WDo (KWrite [97%N])); Run 0; Run 0]); reflexivity|]. split; [reflexivity|].
  intros s' H r HR.
  match type of H with wruns ?re ?en ?s _ => assert (R : written_by re en [] s) by (apply (@moves_runs _ _ [Make (WDo (KWrite [97%N])); Run 0; Run 0]); reflexivity) end.
  destruct (C62_reentrant_tracer_blocks_forever (i:=0) R eq_refl H) as [E _].
  pose proof (runs_trans R H) as R'. pose proof (runs_inv R') as J. rewrite (tracer_alive R' E) in J. destruct J as [lin J].
  pose proof (c_ret J HR) as Q. rewrite E in Q. discriminate.
Qed.

(** Two Writes at the same time, of which the one called later gets the mutex
    first, and then Close. *)
Definition two_writes : list wmove :=
  [Make (WDo (KWrite [97; 98]%N)); Make (WDo (KWrite [99]%N)); Make (WGet GFormat)] ++ repeat (Run 1) 3 ++ [Run 1; Run 0; Run 0; Run 1] ++ repeat (Run 0) 3 ++ repeat (Run 2) 5 ++
  [Make (WDo KClose)] ++ repeat (Run 3) 5.
Example C61_met :
  exists s, written_by (fun _ _ => false) demo_wenv [WithFormat RawFormat] s /\ Finished s 3 /\
    writes_made (wtrace s) = [[97; 98]%N; [99]%N] /\
    decompress demo_renv raw_opts [(sink (w_out (wsh s)), None); ([], Some EOF)] = Ok ([99; 97; 98]%N, Some EOF).
Proof.
  destruct (moves (fun _ _ => false) demo_wenv (wfresh (newWriter [WithFormat RawFormat])) two_writes) as [s|] eqn:E.
  2:{ exfalso. vm_compute in E. discriminate. }
  exists s. split; [apply (@moves_runs _ _ _ _ _ E)|].
  assert (T : wtrace s = [Called 0 (WDo (KWrite [97; 98]%N)); Called 1 (WDo (KWrite [99]%N)); Called 2 (WGet GFormat);
      Returned 1 (WR (RWrite 1 None)); Returned 0 (WR (RWrite 2 None)); Returned 2 (WV (VFormat RawFormat)); Called 3 (WDo KClose); Returned 3 (WR (RError None))] /\ wdead s = None /\
      decompress demo_renv raw_opts [(sink (w_out (wsh s)), None); ([], Some EOF)] = Ok ([99; 97; 98]%N, Some EOF)).
  { vm_compute in E. injection E as <-. split; [reflexivity|]. split; [reflexivity|]. vm_compute. reflexivity. }
  destruct T as (T & D & K). split; [|split; [unfold writes_made; rewrite T; reflexivity|exact K]].
  constructor; auto; rewrite T.
  - intros i c H. cbn [In] in H. destruct H as [H|[H|[H|[H|[H|[H|[H|[H|[]]]]]]]]]; try discriminate H; injection H as <- <-.
    + exists (WR (RWrite 2 None)). cbn [In]. split; [auto 10|exact I].
    + exists (WR (RWrite 1 None)). cbn [In]. split; [auto 10|exact I].
    + exists (WV (VFormat RawFormat)). cbn [In]. split; [auto 10|exact I].
    + exists (WR (RError None)). cbn [In]. split; [auto 10|exact I].
  - cbn. auto 12.
  - intros i c H N. cbn [In] in H. destruct H as [H|[H|[H|[H|[H|[H|[H|[H|[]]]]]]]]]; try discriminate H; injection H as <- <-; [| | |congruence]; (split; [exact I|]).
    + exists [Called 0 (WDo (KWrite [97; 98]%N)); Called 1 (WDo (KWrite [99]%N)); Called 2 (WGet GFormat); Returned 1 (WR (RWrite 1 None))]. do 3 eexists. split; [reflexivity|cbn; auto].
    + exists [Called 0 (WDo (KWrite [97; 98]%N)); Called 1 (WDo (KWrite [99]%N)); Called 2 (WGet GFormat)]. do 3 eexists. split; [reflexivity|cbn; auto].
    + exists [Called 0 (WDo (KWrite [97; 98]%N)); Called 1 (WDo (KWrite [99]%N)); Called 2 (WGet GFormat); Returned 1 (WR (RWrite 1 None)); Returned 0 (WR (RWrite 2 None))]. do 3 eexists. split; [reflexivity|cbn; auto].
Qed.
