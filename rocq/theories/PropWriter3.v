(** More about the Writer: NoCompression and PartialFlush (C24). *)
From Verif Require Import Base SpecChecksum SpecEvents SpecHuffman SpecDeflate SpecFormats SpecSession MChecksum PChecksum MToken MCommon MWriter MReader SpecLib MSession
  PToken PHuffman PTree PBits PActs PBlocks PCompress PWriter PSession PInv PFormat PApi PInst PClient PropWriter Demo PDemo.

Lemma Blocks_first (B : blockpred) pos hist v k : Blocks B pos hist v k ->
  v = [] /\ k = hist \/ exists w h r, B pos hist false w h /\ Blocks B (pos + length w) h r k /\ v = w ++ r.
Proof.
  induction 1 as [|v k v' k' H1 [[-> ->]|[w [h [r [I1 [I2 ->]]]]]] H2]; [left; auto| |].
  - right. exists v', k', []. cbn [length] in H2. rewrite Nat.add_0_r in H2. rewrite app_nil_r. repeat split; auto. constructor.
  - right. exists w, h, (r ++ v'). rewrite <- app_assoc. repeat split; auto. econstructor; eauto. rewrite app_length, Nat.add_assoc in H2. auto.
Qed.
Lemma Deflate_first (B : blockpred) pos hist w1 h w2 h' : Blocks B pos hist w1 h -> B (pos + length w1) h true w2 h' ->
  B pos hist true w2 h' /\ w1 = [] \/
  exists u k r, B pos hist false u k /\ w1 = u ++ r /\ Blocks B (pos + length u) k r h.
Proof.
  intros H1 H2. destruct (Blocks_first H1) as [[-> ->]|[u [k [r [I1 [I2 ->]]]]]].
  - left. cbn in H2. rewrite Nat.add_0_r in H2. auto.
  - right. exists u, k, r. auto.
Qed.
Lemma stored_shape pos hist f w h r : StoredBlockOnly pos hist f w h ->
  exists pad n data, length pad = (8 - (pos + 3) mod 8) mod 8 /\ w ++ r = f :: false :: false :: pad ++ bits_of_N 16 n ++ bits_of_N 16 (65535 - n)%N ++ bits_of_bytes data ++ r /\
    lenN data = n /\ (n <= 65535)%N /\ length w = 3 + length pad + 32 + 8 * length data.
Proof.
  intros [pad [data [P1 [P2 [P3 [P4 [-> _]]]]]]]. exists pad, (lenN data), data. split; [|split; [|split; [|split]]]; auto.
  - pose proof (Nat.mod_upper_bound (pos + 3) 8 ltac:(lia)). rewrite Nat.add_mod in P2 by lia. destruct (Nat.eq_dec ((pos + 3) mod 8) 0) as [E|E].
    + rewrite E in *. cbn [Nat.add] in P2. rewrite Nat.mod_mod, Nat.mod_small in P2 by lia. rewrite P2. reflexivity.
    + rewrite (Nat.mod_small (length pad)) in P2 by lia. rewrite (Nat.mod_small (8 - _)) by lia.
      set (a := (pos + 3) mod 8) in *. clearbody a.
      assert (Hq : a + length pad = 8 * ((a + length pad) / 8)) by (pose proof (Nat.div_mod (a + length pad) 8 ltac:(lia)); lia).
      assert ((a + length pad) / 8 < 2) by (apply Nat.div_lt_upper_bound; lia). destruct ((a + length pad) / 8) as [|[|q]]; lia.
  - rewrite <- !app_assoc. reflexivity.
  - rewrite !app_length, !length_bits_of_N, length_bits_of_bytes. cbn [length]. lia.
Qed.

Definition stored_ops : list wop := [OWrite [65]%N; OFlush PartialFlush].
Definition stored_opts : list opt := [WithFormat RawFormat; WithMemoryLevel 1; WithCompressLevel 0].
Theorem C24_refuted_partial_flush :
  o_clevel (effective stored_opts) = 0%Z /\
  exists w', w_session demo_wenv (newWriter stored_opts) stored_ops = Ok (w', None) /\
    forall d, ~ RawStream StoredBlockOnly [] (sink (w_out w')) d.
Proof.
  split; [reflexivity|]. destruct (w_session demo_wenv (newWriter stored_opts) stored_ops) as [[w' [e|]]| |] eqn:E; try (vm_compute in E; discriminate).
  exists w'. split; auto. intros d.
  assert (S : sink (w_out w') = match w_session demo_wenv (newWriter stored_opts) stored_ops with Ok (w, _) => sink (w_out w) | _ => [] end) by (rewrite E; auto).
  rewrite S. clear. match goal with |- ~ RawStream _ _ ?x _ => let y := eval vm_compute in x in replace x with y by (vm_compute; reflexivity) end.
  intros [_ [w [pad [_ [EB [w1 [h [w2 [H1 [H2 ->]]]]]]]]]]. rewrite <- app_assoc in EB.
  assert (SH : forall (u : list bool) k r f, StoredBlockOnly 0 (rev []) f u k -> u ++ r = w1 ++ w2 ++ pad -> length u = 48).
  { intros u k r f HB Eu. destruct (stored_shape r HB) as [p [n [dt [L1 [E1 [L2 [L3 L4]]]]]]]. rewrite Eu, <- EB in E1. cbn [Nat.add Nat.modulo Nat.divmod fst snd Nat.sub] in L1.
    apply (f_equal (fun l => firstn 16 (skipn 8 l))) in E1.
    assert (G : firstn 16 (skipn 8 (f :: false :: false :: p ++ bits_of_N 16 n ++ bits_of_N 16 (65535 - n) ++ bits_of_bytes dt ++ r)) = bits_of_N 16 n).
    { do 5 (destruct p as [|? p]; [discriminate|]). destruct p; [|discriminate]. cbn [app skipn]. rewrite firstn_app, length_bits_of_N, Nat.sub_diag, firstn_O, app_nil_r. apply firstn_all2. rewrite length_bits_of_N. auto. }
    rewrite G in E1. apply (f_equal N_of_bits) in E1. rewrite N_of_bits_of_N in E1. rewrite N.mod_small in E1 by (cbn; lia). vm_compute in E1. rewrite L1 in L4. unfold lenN in L2. lia. }
  rewrite <- (Nat.add_0_l (length w1)) in H2. destruct (Deflate_first H1 H2) as [[HB ->]|[u [k [r [HB [-> HB2]]]]]].
  - destruct (stored_shape pad HB) as [p [n [dt [_ [E1 _]]]]]. cbn [app] in EB. rewrite E1 in EB. discriminate.
  - assert (LU : length u = 48) by (eapply SH; [exact HB|rewrite <- app_assoc; reflexivity]).
    assert (T : exists f v m t, StoredBlockOnly 48 k f v m /\ r ++ w2 ++ pad = v ++ t).
    { rewrite app_length, Nat.add_assoc in H2. destruct (Deflate_first HB2 H2) as [[HB3 ->]|[v [m [r2 [HB3 [-> _]]]]]].
      - rewrite LU in HB3. exists true, w2, (rev d ++ rev []), pad. auto.
      - rewrite LU in HB3. exists false, v, m, (r2 ++ w2 ++ pad). rewrite <- app_assoc. auto. }
    destruct T as [f [v [m [t [HB3 ET]]]]]. destruct (stored_shape t HB3) as [p [n [dt [_ [E1 _]]]]]. rewrite <- ET in E1.
    rewrite <- app_assoc, E1 in EB. clear - LU EB. do 48 (destruct u as [|? u]; [discriminate|]). destruct u; [|discriminate]. discriminate.
Qed.
Print Assumptions C24_refuted_partial_flush.

(** ** C45, Writer: totals at the end of every stream, also those ended by FinishFlush *)
Lemma asteps_snoc : forall ops a op a', asteps a (ops ++ [op]) a' -> exists a1, asteps a ops a1 /\ astep a1 op a'.
Proof.
  induction ops as [|o ops IH]; intros a op a' H; inversion H; subst.
  - inversion H5; subst. exists a. split; [constructor|auto].
  - destruct (IH _ _ _ H5) as [a2 [I1 I2]]. exists a2. split; [econstructor; eauto|auto].
Qed.
Theorem C45_writer_finish_totals :
  forall env opts ops w', lib_ok env -> opts_ok opts -> Forall op_ok ops ->
    w_run env (newWriter opts) (ops ++ [OFlush FinishFlush]) = Ok (w', None) ->
    exists evs e, w_events w' = evs ++ [e] /\ e_type e = StreamCloseEvent /\
      e_inTotal e = (lenN (ops_data ops) mod two64)%N /\ e_outTotal e = (lenN (sink (w_out w')) mod two64)%N.
Proof.
  intros env opts ops w' HL HO Hops E. pose proof (effective_ok HO) as Hw.
  pose proof (@c_run env HL _ Hw 0 0 [] _ _ (inst_strict (lib_lz HL) Hw) (ops ++ [OFlush FinishFlush]) a_init (newWriter opts)
    (sess_new _ (lib_bpb HL) HO)) as P.
  rewrite E in P. destruct P as [a [P1 P2]]; [apply Forall_app; split; auto; constructor; cbn; auto|].
  destruct (asteps_snoc P1) as [a1 [Q1 Q2]]. inversion Q2; subst. cbn [a_flush] in *.
  pose proof (asteps_data Q1) as D. cbn in D.
  assert (ND : a_done (a_finish a1) <> [] /\ a_cur (a_finish a1) = [] /\ concat (map snd (a_done (a_finish a1))) = ops_data ops).
  { rewrite <- D. unfold a_data, a_finish. destruct (a_cur a1) eqn:E1; [destruct (a_done a1) eqn:E2|]; cbn [a_done a_cur map snd concat].
    - split; [discriminate|auto].
    - rewrite E2. split; [discriminate|]. split; auto. cbn [map concat]. now rewrite app_nil_r.
    - split; [intros K; apply app_eq_nil in K; destruct K; discriminate|]. split; auto. rewrite map_app, concat_app. cbn [map concat snd]. now rewrite app_nil_r. }
  destruct ND as [N1 [N2 N3]]. destruct P2 as [bs [HF [[H1 [H2 [H3 [hd [H4 H5]]]]]|[H1 _]]]]; [|contradiction].
  pose proof (idle_totals H5 N1) as G. rewrite !N.add_0_l in G. unfold tlen in G. rewrite N3 in G. exact G.
Qed.
Example C45_finish_meets : exists w', w_run demo_wenv (newWriter []) ([OWrite [1; 2; 3]%N] ++ [OFlush FinishFlush]) = Ok (w', None).
Proof. eexists. vm_compute. reflexivity. Qed.
Print Assumptions C45_writer_finish_totals.
