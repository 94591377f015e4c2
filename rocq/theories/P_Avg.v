(** * The gradients of a batch are the averages of the gradients of its rows (C109) *)
From Coq Require Import Reals.
From Verif Require Import Base Scalar ScalarR Types Spec SpecR SpecNN SpecLayers M_Shape M_Tensor M_Adv M_Act M_Loss M_Layers M_Reg M_Opt M_Net SpecNet SpecNetR SpecBatch SpecBatchR
  L_Index L_Layers L_Conv L_Batch L_Avg P_Tensor P_Layers P_Net.
Local Open Scope Z_scope.

(** Networks without convolutions: in every layer with parameters, the gradients a batch leaves are the averages of the
    gradients its rows leave one at a time. *)
Theorem C109_partial : forall {G} {HR : Rng R G} (n : net R G) lo N ds D (x t : tensor R) n' (m : Z -> net R G), row_net n lo N ds D -> batch_for N ds D x t ->
  gradients n x t n' -> (forall i, 0 <= i < N -> gradients n (gather [i] x) (gather [i] t) (m i)) ->
  forall k w b, params_at n k = Some (w, b) -> exists gw gb gwi gbi, grads_at n' k = Some (gw, gb) /\ (forall i, 0 <= i < N -> grads_at (m i) k = Some (gwi i, gbi i)) /\
      average_of N (tdims w) gwi gw /\ average_of N (tdims b) gbi gb.
Proof. exact @batch_average. Qed.
(** These gradients exist: nothing throws, for the batch and for each row. *)
Theorem C109_exists : forall {G} {HR : Rng R G} (n : net R G) lo N ds D (x t : tensor R), row_net n lo N ds D -> batch_for N ds D x t ->
  (exists n', gradients n x t n') /\ forall i, 0 <= i < N -> exists ni, gradients n (gather [i] x) (gather [i] t) ni.
Proof. exact @batch_exists. Qed.
(** Hence training on a batch with plain SGD gives the average of the parameters that training the same network on
    each row alone would give. *)
Theorem C109_step_partial : forall {G} {HR : Rng R G} (n : net R G) lo o lr N ds D (x t : tensor R) n' (m : Z -> net R G), row_net n lo N ds D -> n_opt n = Some o -> plain_sgd lr o -> batch_for N ds D x t ->
  fit_one n x t n' -> (forall i, 0 <= i < N -> fit_one n (gather [i] x) (gather [i] t) (m i)) ->
  forall k w b, params_at n k = Some (w, b) -> exists w' b' wi bi, params_at n' k = Some (w', b') /\ (forall i, 0 <= i < N -> params_at (m i) k = Some (wi i, bi i)) /\
    average_of N (tdims w) wi w' /\ average_of N (tdims b) bi b'.
Proof. exact @batch_step. Qed.
Theorem C109_step_exists : forall {G} {HR : Rng R G} (n : net R G) lo o lr N ds D (x t : tensor R), row_net n lo N ds D -> n_opt n = Some o -> plain_sgd lr o -> batch_for N ds D x t ->
  (exists n', fit_one n x t n') /\ forall i, 0 <= i < N -> exists ni, fit_one n (gather [i] x) (gather [i] t) ni.
Proof. exact @batch_step_exists. Qed.
(** With a convolution it is false: two images of one pixel, 0 and 1, targets 0. *)
Theorem C109_refuted : forall {G} {HR : Rng R G} (g : G), exists (n : net R G) (x t : tensor R) n' (m : Z -> net R G) w b gw gb gwi gbi,
  n_loss n = Some MSE /\ n_layers n = [LConv (mkConv w b None None None 1 1 1 1 1 0 1)] /\ good x /\ tdims x = [2; 1; 1; 1] /\ good t /\ tdims t = [2; 1; 1; 1] /\
  gradients n x t n' /\ (forall i, 0 <= i < 2 -> gradients n (gather [i] x) (gather [i] t) (m i)) /\
  params_at n 0 = Some (w, b) /\ grads_at n' 0 = Some (gw, gb) /\ (forall i, 0 <= i < 2 -> grads_at (m i) 0 = Some (gwi i, gbi i)) /\ ~ average_of 2 (tdims w) gwi gw.
Proof. exact @conv_not_average. Qed.
(** What a convolution does with a batch, for every layer, batch and target: its gradients are those of the first
    image alone divided by the number of images; the other images leave no trace in them. *)
Theorem C109_first_image : forall {G} {HR : Rng R G} (l : conv R) N h w oh ow (x t : tensor R) o (g : G) n' m, conv_wf l -> oh = h - cv_kh l + 1 -> ow = w - cv_kw l + 1 -> cv_kh l <= h -> cv_kw l <= w ->
  good x -> tdims x = [N; cv_ic l; h; w] -> good t -> tdims t = [N; cv_oc l; oh; ow] ->
  gradients (mkNet [LConv l] (Some MSE) o g) x t n' -> gradients (mkNet [LConv l] (Some MSE) o g) (gather [0] x) (gather [0] t) m ->
  exists gw gb gw0 gb0, grads_at n' 0 = Some (gw, gb) /\ grads_at m 0 = Some (gw0, gb0) /\ tdims gw = tdims (cv_w l) /\ tdims gb = tdims (cv_b l) /\
    (forall idx, in_range (tdims (cv_w l)) idx -> el gw idx = (el gw0 idx / IZR N)%R) /\ (forall idx, in_range (tdims (cv_b l)) idx -> el gb idx = (el gb0 idx / IZR N)%R).
Proof. exact @conv_first. Qed.
Theorem C109_first_exists : forall {G} {HR : Rng R G} (l : conv R) N h w oh ow (x t : tensor R) o (g : G), conv_wf l -> oh = h - cv_kh l + 1 -> ow = w - cv_kw l + 1 -> cv_kh l <= h -> cv_kw l <= w ->
  good x -> tdims x = [N; cv_ic l; h; w] -> good t -> tdims t = [N; cv_oc l; oh; ow] -> exists n', gradients (mkNet [LConv l] (Some MSE) o g) x t n'.
Proof. exact @conv_gradients_exist. Qed.
(** A fully-connected network with a batch of four rows meets the conditions, with either kind of loss. *)
Example C109_case : row_net netR MSE 4 [3] [1] /\ batch_for 4 [3] [1] (constR [4; 3] 1) (constR [4; 1] 0).
Proof.
  split; [split; [exact netR_chain|split; [repeat constructor|split; [reflexivity|discriminate]]]|].
  split; [constRs|]. split; [reflexivity|]. split; [constRs|reflexivity].
Qed.
Print Assumptions C109_partial.
Print Assumptions C109_exists.
Print Assumptions C109_step_partial.
Print Assumptions C109_step_exists.
Print Assumptions C109_refuted.
Print Assumptions C109_first_image.
Print Assumptions C109_first_exists.
