(** The Writer's events and the Reader's events describe the same blocks (C83). *)
From Verif Require Import Base SpecChecksum SpecEvents SpecBlocks SpecTraced PAt SpecHuffman SpecDeflate SpecFormats SpecSession MChecksum PChecksum MToken MCommon MWriter MReader MSession SpecReader SpecLib
  PToken PHuffman PTree PBits PActs PGram PInput POutput PDecode PDynamic PBlockDec PHeader PStream PFooter PThread PLoop PCompress PWriter PSession PInv PFormat PApi PInst PAccept PRead PropReader PropRound PDescr Demo PDemo.

Lemma expand_impl (lk lk' : list N -> N -> option N) : (forall d h c, lk h d = Some c -> lk' h d = Some c) -> forall h ts h', expand lk h ts = Some h' -> expand lk' h ts = Some h'.
Proof.
  intros H h ts h' E. pose proof (@expand_mono lk lk' [] (fun d h c E => eq_ind_r (fun x => lk' x d = Some c) (H d h c E) (app_nil_r h)) _ _ _ E) as K. rewrite !app_nil_r in K. exact K.
Qed.
Lemma BlockE_impl (acc acc' : list nat -> Prop) (lk lk' : list N -> N -> option N) : (forall s, length s <= 288 -> sizes_le 15 s -> acc s -> acc' s) ->
  (forall d h c, lk h d = Some c -> lk' h d = Some c) -> forall pos h f w h' es, BlockE acc lk pos h f w h' es -> BlockE acc' lk' pos h f w h' es.
Proof.
  intros HA HL pos h f w h' es H. destruct H; econstructor; eauto.
  - eapply expand_impl; eauto.
  - eapply TreesAt_impl; eauto.
  - eapply expand_impl; eauto.
Qed.
Lemma DeflateE_impl (acc acc' : list nat -> Prop) (lk lk' : list N -> N -> option N) : (forall s, length s <= 288 -> sizes_le 15 s -> acc s -> acc' s) ->
  (forall d h c, lk h d = Some c -> lk' h d = Some c) -> forall pos h w h' es, DeflateE acc lk pos h w h' es -> DeflateE acc' lk' pos h w h' es.
Proof. intros HA HL pos h w h' es H. induction H; [apply de_last|eapply de_more; eauto]; eapply BlockE_impl; eauto. Qed.
Lemma RawStreamE_impl (acc acc' : list nat -> Prop) (lk lk' : list N -> N -> option N) : (forall s, length s <= 288 -> sizes_le 15 s -> acc s -> acc' s) ->
  (forall d h c, lk h d = Some c -> lk' h d = Some c) -> forall dict b d es, RawStreamE acc lk dict b d es -> RawStreamE acc' lk' dict b d es.
Proof. intros HA HL dict b d es [H1 [w [pad [H2 [H3 H4]]]]]. split; auto. exists w, pad. split; auto. split; auto. eapply DeflateE_impl; eauto. Qed.

(** Every stream has a description. *)
Lemma Block_E acc lk pos h f w h' : Block acc lk pos h f w h' -> exists es, BlockE acc lk pos h f w h' es.
Proof.
  intros H. destruct H as [pad data H1 H2 H3 H4|ts w h' H1 H2|ll d ts wt w h' H1 H2 H3].
  - eexists. apply blockE_stored; auto.
  - eexists. eapply blockE_static; eauto.
  - pose proof H1 as H0. apply trees_form in H1. destruct H1 as [a [b [c [vs [lls [ds [wc T]]]]]]]. apply trees_at in T.
    eexists. eapply blockE_dynamic; [exact T| |]; cbn; eauto.
Qed.
Lemma DefR_E acc lk pos h w h' : DefR (Block acc lk) pos h w h' -> exists es, DeflateE acc lk pos h w h' es.
Proof.
  induction 1 as [pos h w h' H|pos h w h1 ws h' H _ [es2 IH]]; destruct (Block_E H) as [es E]; eexists; [eapply de_last; eauto|eapply de_more; eauto].
Qed.
Lemma RawStream_E acc lk dict b d : RawStream (Block acc lk) dict b d -> exists es, RawStreamE acc lk dict b d es.
Proof.
  intros [H1 [w [pad [H2 [H3 H4]]]]]. apply Deflate_DefR in H4. destruct (DefR_E H4) as [es E]. exists es. split; auto. exists w, pad. auto.
Qed.
(** Every description is of a stream. *)
Lemma DefE_R acc lk pos h w h' es : DeflateE acc lk pos h w h' es -> DefR (Block acc lk) pos h w h'.
Proof. induction 1; [apply dr_last|eapply dr_cons; eauto]; eapply BlockE_Block; eauto. Qed.
Lemma RawE_Stream acc lk dict b d es : RawStreamE acc lk dict b d es -> RawStream (Block acc lk) dict b d.
Proof. intros [H1 [w [pad [H2 [H3 H4]]]]]. split; auto. exists w, pad. split; auto. split; auto. apply Deflate_DefR. eapply DefE_R; eauto. Qed.
Lemma strict_wlk env opt d hh c : strict_lk (2 ^ o_wbits opt) hh d = Some c -> wlk env (win_size opt) hh d = Some c.
Proof.
  unfold strict_lk, wlk, window_lk, win_size. destruct ((1 <=? d) && (d <=? 2 ^ o_wbits opt) && (d <=? lenN hh))%N eqn:E; [|discriminate]. intros E2.
  replace ((1 <=? d) && (d <=? 2 ^ o_wbits opt))%N with true by lia. replace (d <=? lenN hh)%N with true by lia. auto.
Qed.
