(** Descriptions of streams by events are unique (C83). *)
From Verif Require Import Base SpecChecksum SpecEvents SpecBlocks PAt SpecHuffman SpecDeflate SpecFormats MChecksum PChecksum MToken MCommon MWriter MReader SpecLib
  PToken PHuffman PTree PBits PActs PGram PInput POutput PDecode PDynamic PBlockDec PAccept.

Lemma TreesAt_impl (acc acc' : list nat -> Prop) t w : (forall s, length s <= 288 -> sizes_le 15 s -> acc s -> acc' s) -> TreesAt acc t w -> TreesAt acc' t w.
Proof.
  intros HA [H1 [H2 [H3 [H4 [H5 [H6 [H7 [H8 [H9 [lls [ds [wc [K1 [K2 [K3 [K4 [K5 K6]]]]]]]]]]]]]]]]].
  assert (S7 : sizes_le 15 (t_xs t)) by (eapply Forall_impl; [|exact H5]; cbn; intros; lia).
  pose proof (cl_sizes_pure K3 (Forall_nil _)) as KS. apply Forall_app in KS. destruct KS as [KS1 KS2].
  assert (R : forall k, sizes_le 15 (repeat 0 k)) by (intros k; apply Forall_forall; intros y Hy; apply repeat_spec in Hy; lia).
  unfold lenN in *.
  split; [auto|]. split; [auto|]. split; [auto|]. split; [auto|]. split; [auto|]. split; [auto|].
  split; [apply HA; auto; lia|]. split.
  { apply HA; auto; rewrite K4; [rewrite app_length, repeat_length; lia|]. apply Forall_app; split; auto. apply R. }
  split.
  { apply HA; auto; rewrite K5; [rewrite app_length, repeat_length; lia|]. apply Forall_app; split; auto. apply R. }
  exists lls, ds, wc. auto 10.
Qed.
Lemma BlockS_impl (acc acc' : list nat -> Prop) pos f w es : (forall s, length s <= 288 -> sizes_le 15 s -> acc s -> acc' s) -> BlockS acc pos f w es -> BlockS acc' pos f w es.
Proof. intros HA H. destruct H; econstructor; eauto. eapply TreesAt_impl; eauto. Qed.
Lemma BlockS_pos acc pos pos' f w es : pos mod 8 = pos' mod 8 -> BlockS acc pos f w es -> BlockS acc pos' f w es.
Proof.
  intros E H. destruct H; try (econstructor; eauto; fail). constructor; auto.
  rewrite <- Nat.add_assoc, Nat.add_mod, <- E, <- Nat.add_mod, Nat.add_assoc; auto.
Qed.
Lemma BlockE_S acc lk pos h f w h' es : BlockE acc lk pos h f w h' es -> BlockS acc pos f w es.
Proof. intros H. destruct H; econstructor; eauto. Qed.

(** Non-final blocks, then a final one. *)
Inductive DeflS (acc : list nat -> Prop) (pos : nat) : list bool -> list pre_event -> Prop :=
| dS_last w es : BlockS acc pos true w es -> DeflS acc pos w es
| dS_more w es w' es' : BlockS acc pos false w es -> DeflS acc (pos + length w) w' es' -> DeflS acc pos (w ++ w') (es ++ es').
Lemma DeflE_S acc lk pos h w h' es : DeflateE acc lk pos h w h' es -> DeflS acc pos w es.
Proof. induction 1; [apply dS_last|eapply dS_more; eauto]; eapply BlockE_S; eauto. Qed.
Lemma DeflS_impl (acc acc' : list nat -> Prop) pos w es : (forall s, length s <= 288 -> sizes_le 15 s -> acc s -> acc' s) -> DeflS acc pos w es -> DeflS acc' pos w es.
Proof. intros HA. induction 1; [apply dS_last|apply dS_more; auto]; eapply BlockS_impl; eauto. Qed.
Lemma DeflS_pos acc pos w es : DeflS acc pos w es -> forall pos', pos mod 8 = pos' mod 8 -> DeflS acc pos' w es.
Proof.
  induction 1; intros pos' E; [apply dS_last|apply dS_more]; try (eapply BlockS_pos; eauto; fail).
  apply IHDeflS. rewrite Nat.add_mod, E, <- Nat.add_mod; auto.
Qed.

Lemma cl_order_all n : n < 19 -> exists i, i < 19 /\ nth i cl_order 0 = n.
Proof. intros H. do 19 (destruct n as [|n]; [solve [first [exists 0; split; [lia|reflexivity]|exists 1; split; [lia|reflexivity]|exists 2; split; [lia|reflexivity]|exists 3; split; [lia|reflexivity]|exists 4; split; [lia|reflexivity]|exists 5; split; [lia|reflexivity]|exists 6; split; [lia|reflexivity]|exists 7; split; [lia|reflexivity]|exists 8; split; [lia|reflexivity]|exists 9; split; [lia|reflexivity]|exists 10; split; [lia|reflexivity]|exists 11; split; [lia|reflexivity]|exists 12; split; [lia|reflexivity]|exists 13; split; [lia|reflexivity]|exists 14; split; [lia|reflexivity]|exists 15; split; [lia|reflexivity]|exists 16; split; [lia|reflexivity]|exists 17; split; [lia|reflexivity]|exists 18; split; [lia|reflexivity]]]|]). lia. Qed.

Section Inj.
Variable env : renv.
Hypothesis Hlib : rlib_ok env.
Notation racc := (racc env).
Lemma one_pos : (0 < 1)%N. Proof. lia. Qed.

Lemma TreesAt_inj t1 w1 r1 t2 w2 r2 : TreesAt racc t1 w1 -> TreesAt racc t2 w2 -> w1 ++ r1 = w2 ++ r2 -> t1 = t2 /\ w1 = w2 /\ r1 = r2.
Proof.
  intros A B E. destruct (trees_inj Hlib one_pos (at_trees A) (at_trees B) E) as [E1 [E2 [E3 E4]]]. split; auto. subst w2 r2. clear E.
  destruct A as [H1 [H2 [H3 [H4 [H5 [H6 [H7 [H8 [H9 [lls [ds [wc [K1 [K2 [K3 [K4 [K5 K6]]]]]]]]]]]]]]]]].
  destruct B as [J1 [J2 [J3 [J4 [J5 [J6 [J7 [J8 [J9 [lls2 [ds2 [wc2 [L1 [L2 [L3 [L4 [L5 L6]]]]]]]]]]]]]]]]].
  rewrite K6 in L6.
  apply bits_app_inj in L6; [|change (2 ^ N.of_nat 5)%N with 32%N; lia..]. destruct L6 as [M1 L6].
  apply bits_app_inj in L6; [|change (2 ^ N.of_nat 5)%N with 32%N; lia..]. destruct L6 as [M2 L6].
  apply bits_app_inj in L6; [|change (2 ^ N.of_nat 4)%N with 16%N; lia..]. destruct L6 as [M3 L6].
  destruct t1 as [x1 ll1 d1 xs1 lls1 ds1], t2 as [x2 ll2 d2 xs2 lls2' ds2']. cbn [t_x t_ll t_d t_xs t_lls t_ds] in *.
  assert (EX : x1 = x2) by lia. assert (EL : ll1 = ll2) by lia. assert (ED : d1 = d2) by lia. rewrite <- EX in *. clear K1 K2 L1 L2 K4 K5 L4 L5.
  rewrite !cl_sizes_bits3 in L6. 
  apply bits3_inj in L6; [| | |rewrite !map_length; auto].
  2:{ apply Forall_forall. intros y Hy. apply in_map_iff in Hy. destruct Hy as [s [<- _]]. destruct (nth_in_or_default s xs1 0) as [I| ->]; [|lia]. red in H5. rewrite Forall_forall in H5. auto. }
  2:{ apply Forall_forall. intros y Hy. apply in_map_iff in Hy. destruct Hy as [s [<- _]]. destruct (nth_in_or_default s xs2 0) as [I| ->]; [|lia]. red in J5. rewrite Forall_forall in J5. auto. }
  destruct L6 as [L6 _]. f_equal; auto. apply nth_ext with (d := 0) (d' := 0); [congruence|]. intros n Hn. rewrite H4 in Hn.
  destruct (cl_order_all Hn) as [i [I1 I2]]. destruct (Nat.lt_ge_cases i (N.to_nat x1)) as [C|C].
  - apply (f_equal (fun l => nth i l 0)) in L6.
    assert (LL : i < length (firstn (N.to_nat x1) cl_order)) by (rewrite firstn_length; change (length cl_order) with 19; lia).
    rewrite (nth_indep _ 0 (nth 0 xs1 0)) in L6 by (rewrite map_length; auto).
    rewrite (nth_indep (map (fun s => nth s xs2 0) _) 0 (nth 0 xs2 0)) in L6 by (rewrite map_length; auto).
    rewrite (map_nth (fun s => nth s xs1 0)), (map_nth (fun s => nth s xs2 0)) in L6.
    rewrite nth_firstn_lt in L6 by auto. rewrite I2 in L6. auto.
  - rewrite <- I2, H6, J6; auto.
Qed.

Lemma BlockS_inj pos f1 w1 e1 f2 w2 e2 r1 r2 :
  BlockS racc pos f1 w1 e1 -> BlockS racc pos f2 w2 e2 -> w1 ++ r1 = w2 ++ r2 -> f1 = f2 /\ w1 = w2 /\ e1 = e2 /\ r1 = r2.
Proof.
  intros A B E. destruct fixed_ll_ok as [FL1 FL2], fixed_d_ok as [FD1 FD2].
  destruct A as [pad1 dat1 P1 P2 P3 P4|ts1 v1 P1|t1 ts1 wt1 v1 P1 P2]; destruct B as [pad2 dat2 Q1 Q2 Q3 Q4|ts2 v2 Q1|t2 ts2 wt2 v2 Q1 Q2];
    cbn [app] in E; apply cons3 in E; destruct E as [EF [E1 [E2 EV]]]; try discriminate; subst f2; split; auto.
  - assert (LP : length pad1 = length pad2) by (apply (@pad_unique (pos + 3)); auto).
    rewrite <- !app_assoc in EV. apply app_inj_length in EV; auto. destruct EV as [<- EV].
    apply bits_app_inj in EV; [|change (2 ^ N.of_nat 16)%N with 65536%N; lia..]. destruct EV as [EL EV].
    apply bits_app_inj in EV; [|change (2 ^ N.of_nat 16)%N with 65536%N; lia..]. destruct EV as [_ EV].
    apply bits_of_bytes_inj in EV; auto; [|unfold lenN in EL; lia]. destruct EV as [-> ->]. auto.
  - destruct (TokensEnc_inj FL1 FL2 FD1 FD2 P1 Q1 EV) as [-> [-> ->]]. auto.
  - rewrite <- !app_assoc in EV. destruct (TreesAt_inj P1 Q1 EV) as [-> [-> EW]].
    destruct (trees_sizes Hlib one_pos (at_trees Q1)) as [T1 [T2 [T3 T4]]]. destruct (TokensEnc_inj T1 T3 T2 T4 P2 Q2 EW) as [-> [-> ->]]. auto.
Qed.
Lemma DeflS_inj pos w1 e1 : DeflS racc pos w1 e1 -> forall w2 e2 r1 r2, DeflS racc pos w2 e2 -> w1 ++ r1 = w2 ++ r2 -> w1 = w2 /\ e1 = e2 /\ r1 = r2.
Proof.
  induction 1 as [pos w es H|pos w es ws es' H _ IH]; intros w2 e2 r1 r2 D E; destruct D as [w2 e2 D|w2 e2 ws2 es2 D1 D2].
  - destruct (BlockS_inj H D E) as [_ ?]. auto.
  - rewrite <- app_assoc in E. destruct (BlockS_inj H D1 E) as [? _]. discriminate.
  - rewrite <- app_assoc in E. destruct (BlockS_inj H D E) as [? _]. discriminate.
  - rewrite <- !app_assoc in E. destruct (BlockS_inj H D1 E) as [_ [<- [<- E1]]]. destruct (IH _ _ _ _ D2 E1) as [-> [-> ->]]. auto.
Qed.
Lemma proper_racc s : length s <= 288 -> sizes_le 15 s -> proper_code s -> racc s.
Proof. intros H _ P. apply (rl_acc_complete Hlib); auto. Qed.
(** Two descriptions of the same bytes. *)
Lemma RawE_unique lk lk' dict dict' b d d' es es' : RawStreamE racc lk dict b d es -> RawStreamE racc lk' dict' b d' es' -> es = es'.
Proof.
  intros [_ [w [pad [_ [E1 D1]]]]] [_ [w' [pad' [_ [E2 D2]]]]]. apply DeflE_S in D1. apply DeflE_S in D2.
  rewrite E1 in E2. destruct (DeflS_inj D1 D2 E2) as [_ [? _]]. auto.
Qed.
End Inj.
