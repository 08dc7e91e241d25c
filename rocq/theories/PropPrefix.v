(** C85: what a Reader delivers depends only on the input it has read. *)
From Verif Require Import Base SpecChecksum SpecHuffman SpecDeflate SpecFormats SpecSession SpecEvents MChecksum MToken MCommon MWriter MReader SpecReader SpecLib PInput PApi PInst PLog PRead PropReader PropReader2 PropReader3 PropReader4 Demo PDemo PGrow PEmpty PCaus.

Lemma log_is_del r : rall PEmpty.ofr r -> match r with Ok q => log_data (o_log (r_out q)) = del (r_out q) | _ => True end.
Proof. destruct r as [q|?|]; cbn; auto. intros [_ H]. unfold del, r_out. rewrite H. now rewrite app_nil_r. Qed.

(** The thread, started in any state in which nothing is buffered. *)
Lemma thread_prefix rest stop env r s r' s' : Sr rest stop r s -> o_dbuf (r_out r) = [] ->
  readThread env r = Ok r' -> readThread env s = Ok s' ->
  exists t, log_data (o_log (r_out r')) = log_data (o_log (r_out s')) ++ t.
Proof.
  intros H D E1 E2. pose proof (c_thread env H) as K. pose proof (log_is_del (PEmpty.ofr_thread env (r := r) (conj (PEmpty.IV _) D))) as L1.
  assert (D2 : o_dbuf (r_out s) = []) by (rewrite <- (Sr_outeq H); exact D).
  pose proof (log_is_del (PEmpty.ofr_thread env (r := s) (conj (PEmpty.IV _) D2))) as L2.
  rewrite E1 in K, L1. rewrite E2 in K, L2. cbn [crel] in K. unfold RS in K. rewrite L1, L2. exact K.
Qed.
Lemma Sr_start opt cs rest stop a b c d n h f ev o : 
  Sr rest stop (Reader opt (DST (IST (cs ++ rest) [] None a b c d n) o) h f ev []) (Reader opt (DST (IST (cs ++ [([], Some stop)]) [] None a b c d n) o) h f ev []).
Proof. split; [reflexivity|]. split; [split; [|reflexivity]|repeat split]. cbn [d_in r_d]. constructor; cbn; eauto. Qed.

(** A source that fails after the results [cs], and one that goes on in any way. *)
Theorem C85_delivered_from_prefix :
  forall env opts cs stop more d1 e1 d2 e2,
    decompress env opts (cs ++ [([], Some stop)]) = Ok (d1, e1) ->
    decompress env opts (cs ++ more) = Ok (d2, e2) ->
    exists t, d2 = d1 ++ t.
Proof.
  intros env opts cs stop more d1 e1 d2 e2. unfold decompress.
  destruct (readThread env (newReader (cs ++ [([], Some stop)]) opts)) as [s'|?|] eqn:E1; cbn [rbind]; try discriminate. intros Q1. injection Q1 as <- <-.
  destruct (readThread env (newReader (cs ++ more) opts)) as [r'|?|] eqn:E2; cbn [rbind]; try discriminate. intros Q2. injection Q2 as <- <-.
  refine (@thread_prefix more stop env _ _ r' s' _ _ E2 E1); [apply Sr_start|reflexivity].
Qed.
(** The same for a Reader that has been used before. *)
Theorem C85_delivered_from_prefix_again :
  forall env r opts cs stop more d1 e1 d2 e2,
    decompress_again env r (cs ++ [([], Some stop)]) opts = Ok (d1, e1) ->
    decompress_again env r (cs ++ more) opts = Ok (d2, e2) ->
    exists t, d2 = d1 ++ t.
Proof.
  intros env r opts cs stop more d1 e1 d2 e2. unfold decompress_again.
  destruct (readThread env (r_reset r (cs ++ [([], Some stop)]) opts)) as [s'|?|] eqn:E1; cbn [rbind]; try discriminate. intros Q1. injection Q1 as <- <-.
  destruct (readThread env (r_reset r (cs ++ more) opts)) as [r'|?|] eqn:E2; cbn [rbind]; try discriminate. intros Q2. injection Q2 as <- <-.
  refine (@thread_prefix more stop env _ _ r' s' _ _ E2 E1); destruct r as [o [i u] n h f ev]; [|reflexivity].
  split; [reflexivity|]. split; [split; [|reflexivity]|repeat split]. cbn [d_in r_d r_reset]. constructor; cbn; eauto.
Qed.

(** In terms of bytes: a file and the same file cut off anywhere. *)
Definition piece (x : list N) : source := match x with [] => [] | _ => [(x, None)] end.
Lemma piece_bytes x s : src_bytes (piece x ++ s) = x ++ src_bytes s.
Proof. destruct x; reflexivity. Qed.
Lemma piece_end x s : src_end (piece x ++ s) = src_end s.
Proof. destruct x; reflexivity. Qed.
Lemma piece_polite x s : polite_src s -> polite_src (piece x ++ s).
Proof. destruct x; cbn; auto. split; auto. discriminate. Qed.
Lemma piece_detached x s : detached_src s -> detached_src (piece x ++ s).
Proof. destruct x; cbn; auto. Qed.
Theorem C85_cut_input :
  forall env opts src src' more d1 e1 d2 e2, rlib_ok env -> opts_ok opts ->
    good_src src -> good_src src' -> detached_src src -> detached_src src' -> o_format (reffective opts) <> DefaultFormat ->
    src_bytes src' = src_bytes src ++ more ->
    decompress env opts src = Ok (d1, e1) -> decompress env opts src' = Ok (d2, e2) ->
    exists t, d2 = d1 ++ t.
Proof.
  intros env opts src src' more d1 e1 d2 e2 HL HO HG HG' HD HD' HF EB E1 E2.
  set (x := src_bytes src) in *.
  assert (Bx : bytes_ok x) by apply HG. assert (Bm : bytes_ok more). { destruct HG' as [_ B]. rewrite EB in B. apply bytes_ok_app in B. apply B. }
  set (s1 := piece x ++ [([], Some (src_end src))]). set (s2 := piece x ++ (piece more ++ [([], Some (src_end src'))])).
  assert (P1 : src_bytes s1 = x) by (unfold s1; rewrite piece_bytes; apply app_nil_r).
  assert (P2 : src_bytes s2 = x ++ more) by (unfold s2; rewrite !piece_bytes; cbn; now rewrite app_nil_r).
  assert (Q1 : decompress env opts s1 = Ok (d1, e1)).
  { rewrite <- E1. apply C32_chunking_irrelevant; auto.
    - split; [apply piece_polite; cbn; auto|]. rewrite P1. exact Bx.
    - apply piece_detached; reflexivity.
    - unfold s1. rewrite piece_end. reflexivity. }
  assert (Q2 : decompress env opts s2 = Ok (d2, e2)).
  { rewrite <- E2. apply C32_chunking_irrelevant; auto.
    - split; [apply piece_polite, piece_polite; cbn; auto|]. rewrite P2. apply bytes_ok_app; auto.
    - apply piece_detached, piece_detached; reflexivity.
    - congruence.
    - unfold s2. rewrite !piece_end. reflexivity. }
  exact (C85_delivered_from_prefix Q1 Q2).
Qed.
(** Whatever follows, what has been delivered from the common part agrees. *)
Theorem C85_common_prefix :
  forall env opts x src1 src2 y1 y2 stop d e d1 e1 d2 e2, rlib_ok env -> opts_ok opts ->
    bytes_ok x -> good_src src1 -> good_src src2 -> detached_src src1 -> detached_src src2 -> o_format (reffective opts) <> DefaultFormat ->
    src_bytes src1 = x ++ y1 -> src_bytes src2 = x ++ y2 ->
    decompress env opts (piece x ++ [([], Some stop)]) = Ok (d, e) ->
    decompress env opts src1 = Ok (d1, e1) -> decompress env opts src2 = Ok (d2, e2) ->
    exists t1 t2, d1 = d ++ t1 /\ d2 = d ++ t2.
Proof.
  intros env opts x src1 src2 y1 y2 stop d e d1 e1 d2 e2 HL HO Bx G1 G2 D1 D2 HF B1 B2 E E1 E2.
  assert (P : src_bytes (piece x ++ [([], Some stop)]) = x) by (rewrite piece_bytes; apply app_nil_r).
  assert (G : good_src (piece x ++ [([], Some stop)])) by (split; [apply piece_polite; cbn; auto|rewrite P; exact Bx]).
  assert (D : detached_src (piece x ++ [([], Some stop)])) by (apply piece_detached; reflexivity).
  destruct (@C85_cut_input env opts _ src1 y1 d e d1 e1 HL HO G G1 D D1 HF ltac:(rewrite P; exact B1) E E1) as [t1 H1].
  destruct (@C85_cut_input env opts _ src2 y2 d e d2 e2 HL HO G G2 D D2 HF ltac:(rewrite P; exact B2) E E2) as [t2 H2].
  eauto.
Qed.

(** Cut inside the second of two streams, and the same with a damaged rest. *)
Example C85_met :
  decompress demo_renv raw_opts ([(raw_a ++ [0x4b; 4], None)] ++ [([], Some (IOErr 7))])%N = Ok ([97; 97]%N, Some (CorruptInputError 5 2 CDegenerateLL)) /\
  decompress demo_renv raw_opts ([(raw_a ++ [0x4b; 4], None)] ++ [([0; 7], None)])%N = Ok ([97; 97]%N, Some (CorruptInputError 7 1 CReservedBlock)).
Proof. split; vm_compute; reflexivity. Qed.
