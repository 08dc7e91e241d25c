(** C63: what the caller does with its slices after a call returned. *)
From Verif Require Import Base MToken MCommon MWriter MReader SpecSession MSession SpecReader PRead PExtra MAlias PWFrame PropRound PropReader3 Demo.

(** The calls, with the values their arguments had when they were made. *)
Fixpoint ops_at (m : mem) (l : list act) : list wop :=
  match l with
  | [] => []
  | AWrite b :: r => OWrite (bytes_at m b) :: ops_at m r
  | AFlush ft :: r => OFlush ft :: ops_at m r
  | ASetHeader h a :: r => OSetHeader (header_of m h a) :: ops_at m r
  | APoke b p :: r => ops_at (Mem (poke (bytes_at m) b p) (recs_at m)) r
  | ARecs a x :: r => ops_at (Mem (bytes_at m) (poke (recs_at m) a x)) r
  end.
(** The caller leaves alone the arrays of every header it has passed to SetHeader
    ([held]: their arrays of records), and changes no array's length; it may change
    everything else at any time. *)
Fixpoint careful (m : mem) (held : list nat) (l : list act) : Prop :=
  match l with
  | [] => True
  | (AWrite _ | AFlush _) :: r => careful m held r
  | ASetHeader h a :: r => careful m (a :: held) r
  | APoke b p :: r => length p = length (bytes_at m b) /\ (forall a, In a held -> ~ In b (map snd (recs_at m a))) /\ careful (Mem (poke (bytes_at m) b p) (recs_at m)) held r
  | ARecs a x :: r => length x = length (recs_at m a) /\ ~ In a held /\ careful (Mem (bytes_at m) (poke (recs_at m) a x)) held r
  end.

Definition sees (s : ast) (held : list nat) : Prop :=
  match a_held s with None => True | Some a => In a held /\ h_extra (w_hdr (a_w s)) = records (a_mem s) a end.
Lemma sees_look s held : sees s held -> look s = a_w s.
Proof.
  unfold sees, look. destruct (a_held s) as [a|]; auto. intros [_ H]. unfold header_of. rewrite <- H. destruct (a_w s) as [? ? ? ? ? ? h ? ? ?]. destruct h. reflexivity.
Qed.
Lemma records_poke m b p a : ~ In b (map snd (recs_at m a)) -> records (Mem (poke (bytes_at m) b p) (recs_at m)) a = records m a.
Proof.
  intros H. unfold records. cbn [recs_at bytes_at]. apply map_ext_in. intros [[i j] c] K. unfold poke. destruct (Nat.eqb_spec c b) as [->|]; auto.
  exfalso. apply H. apply in_map_iff. exists (i, j, b). auto.
Qed.
Lemma careful_run env : forall l s held, sees s held -> careful (a_mem s) held l ->
  match a_run env s l with
  | Ok (s', e) => w_run env (a_w s) (ops_at (a_mem s) l) = Ok (a_w s', e) /\ look s' = a_w s'
  | Panic p => w_run env (a_w s) (ops_at (a_mem s) l) = Panic p
  | NoFuel => w_run env (a_w s) (ops_at (a_mem s) l) = NoFuel
  end.
Proof.
  induction l as [|x l IH]; intros s held S C; cbn [a_run ops_at w_run]; [split; [reflexivity|eapply sees_look; eauto]|].
  pose proof (sees_look S) as L. destruct s as [m w h]. cbn [a_mem a_w] in *. destruct x as [b|ft|hd a|b p|a r]; cbn [a_step careful a_mem a_held w_run] in *; rewrite ?L.
  - pose proof (@x_Write env (h_extra (w_hdr w)) w (bytes_at m b) eq_refl) as K. cbn [w_step].
    destruct (w_Write env w (bytes_at m b)) as [[w1 [n e]]| |]; cbn [rbind U1] in *; auto.
    assert (S1 : sees (Ast m w1 h) held) by (unfold sees in *; cbn in *; destruct h; auto; rewrite K; auto).
    destruct e as [e|]; [split; [reflexivity|eapply sees_look; eauto]|]. exact (IH (Ast m w1 h) held S1 C).
  - pose proof (@x_Flush env (h_extra (w_hdr w)) w ft eq_refl) as K. cbn [w_step].
    destruct (w_Flush env w ft) as [[w1 e]| |]; cbn [rbind U1] in *; auto.
    assert (S1 : sees (Ast m w1 h) held) by (unfold sees in *; cbn in *; destruct h; auto; rewrite K; auto).
    destruct e as [e|]; [split; [reflexivity|eapply sees_look; eauto]|]. exact (IH (Ast m w1 h) held S1 C).
  - cbn [w_step]. destruct (w_SetHeader w (header_of m hd a)) as [w1 ok] eqn:E. cbn [rbind fst].
    refine (IH (Ast m w1 (if ok then Some a else h)) (a :: held) _ C). unfold sees in *. cbn [a_held a_w a_mem] in *.
    unfold w_SetHeader in E. cbv zeta in E. destruct (Nat.eqb _ _); injection E as <- <-.
    + split; [left; auto|]. destruct w as [? ? ? ? ? ? h0 ? ? ?]. destruct hd. reflexivity.
    + destruct h; auto. destruct S. split; auto. right; auto.
  - destruct C as (C1 & C2 & C3). apply Nat.eqb_eq in C1. rewrite C1. cbn [rbind].
    refine (IH (Ast (Mem (poke (bytes_at m) b p) (recs_at m)) w h) held _ C3). unfold sees in *. cbn in *. destruct h as [a|]; auto.
    destruct S as [S1 S2]. split; auto. rewrite S2. symmetry. apply records_poke; auto.
  - destruct C as (C1 & C2 & C3). apply Nat.eqb_eq in C1. rewrite C1. cbn [rbind].
    refine (IH (Ast (Mem (bytes_at m) (poke (recs_at m) a r)) w h) held _ C3). unfold sees in *. cbn in *. destruct h as [a'|]; auto.
    destruct S as [S1 S2]. split; auto. rewrite S2. unfold records. cbn. unfold poke. destruct (Nat.eqb_spec a' a) as [->|]; auto. contradiction.
Qed.
(** Proved: changing the slices given to Write or WithDictionary, or any other
    memory, makes no difference, as long as the caller leaves alone what it has
    passed to SetHeader. *)
Theorem C63_arguments_by_value_partial :
  forall env m0 d opts m l, careful m [] l ->
    a_session env (Ast m (newWriter (with_dictionary m0 d :: opts)) None) l = w_session env (newWriter (WithDictionary (Some (bytes_at m0 d)) :: opts)) (ops_at m l) /\
    a_session env (Ast m (newWriter opts) None) l = w_session env (newWriter opts) (ops_at m l).
Proof.
  intros env m0 d opts m l C.
  assert (G : forall w, a_session env (Ast m w None) l = w_session env w (ops_at m l)).
  { intros w. unfold a_session, w_session. pose proof (@careful_run env l (Ast m w None) [] I C) as K. cbn [a_w a_mem] in K.
    destruct (a_run env (Ast m w None) l) as [[s' e]| |]; cbn [rbind].
    - destruct K as [-> L]. cbn [rbind]. destruct e; auto. rewrite L. reflexivity.
    - rewrite K. reflexivity.
    - rewrite K. reflexivity. }
  split; apply G.
Qed.

(** False of SetHeader: the caller sets a header with the record AB = [1], which
    is accepted, and then reuses its byte array: the file gets AB = [2]. *)
Definition memory : mem := Mem (fun b => match b with 0 => [97%N] | _ => [1%N] end) (fun _ => [(65, 66, 1%nat)%N]).
Definition gz_opts : list opt := [WithFormat GZIPFormat; WithMemoryLevel 7].
Definition reuse : list act := [ASetHeader header0 0; APoke 1 [2%N]; AWrite 0].
Theorem C63_refuted_set_header :
  (exists w, w_session demo_wenv (newWriter gz_opts) (ops_at memory reuse) = Ok (w, None) /\
     map h_extra (headers_reported demo_renv [WithFormat GZIPFormat] [(sink (w_out w), None); ([], Some EOF)]) = [[XRecord 65 66 [1%N]]]) /\
  (exists w, a_session demo_wenv (Ast memory (newWriter gz_opts) None) reuse = Ok (w, None) /\
     map h_extra (headers_reported demo_renv [WithFormat GZIPFormat] [(sink (w_out w), None); ([], Some EOF)]) = [[XRecord 65 66 [2%N]]]).
Proof.
  split.
  - destruct (w_session demo_wenv (newWriter gz_opts) (ops_at memory reuse)) as [[w e]| |] eqn:E; vm_compute in E; try discriminate. injection E as <- <-. eexists. split; [reflexivity|]. vm_compute. reflexivity.
  - destruct (a_session demo_wenv (Ast memory (newWriter gz_opts) None) reuse) as [[w e]| |] eqn:E; vm_compute in E; try discriminate. injection E as <- <-. eexists. split; [reflexivity|]. vm_compute. reflexivity.
Qed.
(** The check SetHeader makes can so be evaded: the records may be replaced by
    ones it would have refused. *)
Theorem C63_refuted_check_evaded :
  forall env r, length r = 1 -> exists s, a_run env (Ast memory (newWriter gz_opts) None) [ASetHeader header0 0; ARecs 0 r] = Ok (s, None) /\
    h_extra (w_hdr (look s)) = map (fun '(i, j, b) => XRecord i j (bytes_at memory b)) r.
Proof.
  intros env r H. destruct r as [|x [|y r]]; try discriminate. eexists. split; reflexivity.
Qed.
(** A caller that reuses the slice it gave to Write, and its dictionary, is careful. *)
Example C63_met : careful memory [] [ASetHeader header0 0; AWrite 0; APoke 0 [98%N]; AWrite 0; APoke 5 [99%N]] /\
  ops_at memory [ASetHeader header0 0; AWrite 0; APoke 0 [98%N]; AWrite 0; APoke 5 [99%N]] =
    [OSetHeader (with_extra header0 [XRecord 65 66 [1%N]]); OWrite [97%N]; OWrite [98%N]].
Proof.
  split; [|reflexivity]. cbn. split; [reflexivity|]. split; [|split; [reflexivity|split; [|exact I]]].
  - intros a _ [K|[]]. discriminate.
  - intros a _ [K|[]]. discriminate.
Qed.
