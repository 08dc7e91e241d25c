(** Described trees are trees. *)
From Verif Require Import Base SpecHuffman SpecDeflate SpecBlocks MCommon.

Lemma at_trees acc t w : TreesAt acc t w -> DynTrees acc (t_lls t) (t_ds t) w.
Proof.
  intros [H1 [H2 [H3 [H4 [H5 [H6 [H7 [H8 [H9 [lls [ds [wc [K1 [K2 [K3 [K4 [K5 K6]]]]]]]]]]]]]]]]]. unfold lenN in *.
  exists (length lls), (length ds), (N.to_nat (t_x t)), (t_xs t), wc. split; [lia|]. split; [lia|]. split; [lia|]. split; auto. split; auto. split; auto. split; auto.
  split. { exists lls, ds. auto. }
  split; auto. split; auto. rewrite K6. replace (N.of_nat (length lls - 257)) with (t_ll t - 257)%N by lia. replace (N.of_nat (length ds - 1)) with (t_d t - 1)%N by lia.
  replace (N.of_nat (N.to_nat (t_x t) - 4)) with (t_x t - 4)%N by lia. reflexivity.
Qed.

