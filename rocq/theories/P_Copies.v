(** * Several copies of each sample in a batch (C138) *)
From Coq Require Import String Reals Permutation.
From Verif Require Import Base Scalar ScalarR Types Spec SpecR SpecNN SpecLayers M_Shape M_Tensor M_Adv M_Act M_Loss M_Layers M_Reg M_Opt M_Net M_Text M_Log SpecNet SpecNetR SpecLog SpecBatch SpecBatchR SpecCopies
  L_Index L_Tensor L_Nest L_Matmul L_Layers L_Batch L_Avg L_Perm L_Copies P_Tensor P_Layers P_Net P_Perm.
Local Open Scope Z_scope.

(** Exact arithmetic, networks without convolutions, any loss and any optimizer: training on batches that contain [m] copies of
    each sample of the given batches, in any order, prints the same text and ends with the same network, apart from the inputs
    the layers remember. *)
Theorem C138_training_partial : forall {G} {HR : Rng R G} (show : R -> string) (n : net R G) lo o m N ds D samples samples' e, (0 < m)%nat -> row_net n lo N ds D -> row_net n lo (Z.of_nat m * N) ds D ->
  Z.of_nat m * N * prod ds <= INT_MAX -> Z.of_nat m * N * prod D <= INT_MAX -> n_opt n = Some o -> new_optim o ->
  samples <> [] -> Forall (fun s => batch_for N ds D (fst s) (snd s)) samples -> Forall2 (copied m N) samples samples' -> 0 <= e -> e * Zlen samples * Zlen (n_layers n) <= INT_MAX ->
  exists n' n'' out, net_train_report show n (map fst samples) (map snd samples) e = ((n', out), Ok tt) /\
    net_train_report show n (map fst samples') (map snd samples') e = ((n'', out), Ok tt) /\ same_but_inputs n' n''.
Proof. exact @copied_training. Qed.
(** One step, from any state of the optimizer: the same loss, and the same network afterwards. *)
Theorem C138_step_partial : forall {G} {HR : Rng R G} m N Q ds D lo, (0 < m)%nat -> Q = Z.of_nat m * N -> Q * prod ds <= INT_MAX -> Q * prod D <= INT_MAX ->
  forall (n : net R G) sel (x t : tensor R) v n', row_net n lo N ds D -> row_net n lo Q ds D -> batch_for N ds D x t -> copies m N sel ->
  fit_one_loss n x t v n' -> exists n'', fit_one_loss n (gather sel x) (gather sel t) v n'' /\ same_but_inputs n' n''.
Proof. exact @copied_step. Qed.
(** The loss of a batch does not change, for all predictions and targets. *)
Theorem C138_loss : forall m N Q D lo, (0 < m)%nat -> Q = Z.of_nat m * N -> Q * prod D <= INT_MAX ->
  forall sel (p t : tensor R), good p -> tdims p = N :: D -> good t -> tdims t = N :: D -> (lo = CCE -> List.length D = 1%nat) -> copies m N sel ->
  loss_compute lo (gather sel p) (gather sel t) = loss_compute lo p t.
Proof. exact @copied_loss. Qed.
(** With a convolution copies matter, because only the first image is used, divided by the number of images (C109). *)
Theorem C138_refuted : forall {G} {HR : Rng R G} (g : G), exists (n : net R G) (x t : tensor R) sel a b gw gb gw' gb',
  n_loss n = Some MSE /\ (exists l, n_layers n = [LConv l]) /\ good x /\ tdims x = [1; 1; 1; 1] /\ good t /\ tdims t = [1; 1; 1; 1] /\ copies 2 1 sel /\
  gradients n x t a /\ gradients n (gather sel x) (gather sel t) b /\ grads_at a 0 = Some (gw, gb) /\ grads_at b 0 = Some (gw', gb') /\ tdims gw = tdims gw' /\ gw <> gw'.
Proof. exact @conv_copies. Qed.
Print Assumptions C138_training_partial.
Print Assumptions C138_step_partial.
Print Assumptions C138_loss.
Print Assumptions C138_refuted.
(** The network of C116 with Adam, and batches of four samples that come twice: once one after the other, once in between. *)
Lemma netR_chain8 : chain [8; 3] (n_layers netR) [8; 1].
Proof.
  unfold netR, fcR; cbn [n_layers].
  apply chain_cons with (ds' := [8; 2]); [apply fits_fc; [constRs|reflexivity|constRs|reflexivity|vm_compute; discriminate]|].
  apply chain_cons with (ds' := [8; 2]); [apply fits_act; discriminate|].
  apply chain_cons with (ds' := [8; 2]); [apply fits_fc; [constRs|reflexivity|constRs|reflexivity|vm_compute; discriminate]|].
  apply chain_cons with (ds' := [8; 2]); [apply fits_act; discriminate|].
  apply chain_cons with (ds' := [8; 1]); [apply fits_fc; [constRs|reflexivity|constRs|reflexivity|vm_compute; discriminate]|]. constructor.
Qed.
Definition twice : list Z := [0; 1; 2; 3; 0; 1; 2; 3].
Definition mixed : list Z := [3; 0; 1; 2; 3; 0; 1; 2].
Definition copiedP : list (tensor R * tensor R) := [(gather twice (rampR [4; 3]), gather twice (rampR [4; 1])); (gather mixed (constR [4; 3] 1), gather mixed (rampR [4; 1]))].
Local Ltac rampRs := apply good_tensor_of; [repeat constructor; try discriminate|vm_compute; discriminate].
Example C138_case : row_net netP MSE 4 [3] [1] /\ row_net netP MSE (Z.of_nat 2 * 4) [3] [1] /\ Forall (fun s => batch_for 4 [3] [1] (fst s) (snd s)) batchesP /\ Forall2 (copied 2 4) batchesP copiedP /\
  (exists o, n_opt netP = Some o /\ new_optim o) /\ Z.of_nat 2 * 4 * prod [3] <= INT_MAX.
Proof.
  split; [split; [exact netR_chain|split; [repeat constructor|split; [reflexivity|discriminate]]]|].
  split; [split; [exact netR_chain8|split; [repeat constructor|split; [reflexivity|discriminate]]]|].
  split; [repeat (apply Forall_cons; [split; [cbn [fst]; first [constRs|rampRs]|split; [reflexivity|split; [cbn [snd]; rampRs|reflexivity]]]|]); apply Forall_nil|].
  split; [|split; [eexists; split; [reflexivity|constructor]|vm_compute; discriminate]].
  apply Forall2_cons; [exists twice; split; [apply Permutation_refl|split; reflexivity]|].
  apply Forall2_cons; [|apply Forall2_nil]. exists mixed. split; [|split; reflexivity]. unfold copies, mixed. change (concat (repeat (zrange 0 4) 2)) with ([0; 1; 2; 3; 0; 1; 2] ++ [3]).
  apply (Permutation_cons_append [0; 1; 2; 3; 0; 1; 2] 3).
Qed.
