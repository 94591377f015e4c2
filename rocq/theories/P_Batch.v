(** * Rows of a batch: independent in evaluation mode (C107); a single row in training mode (C108) *)
From Coq Require Import Reals.
From Verif Require Import Base Scalar ScalarR Types Spec SpecNN SpecLayers M_Shape M_Tensor M_Adv M_Act M_Layers M_Reg M_Opt M_Net SpecNet SpecBatch
  L_Index L_Layers L_Batch L_BatchR P_Tensor P_Layers P_Net.
Local Open Scope Z_scope.
Local Existing Instance counter_rng.

(** Any choice of rows, in any order and with repetitions: the prediction for the chosen rows consists of the
    chosen rows of the prediction. *)
Theorem C107_chosen_rows : forall {T} {S : Scalar T} {G} {HR : Rng T G} (n : net T G) N ds D D' sel (x : tensor T),
  evaluates_all (N :: ds) (n_layers n) D -> evaluates_all (Zlen sel :: ds) (n_layers n) D' ->
  good x -> tdims x = N :: ds -> rows_of N sel -> prod (Zlen sel :: ds) <= INT_MAX ->
  exists n1 n2 y, net_predict n x = (n1, Ok y) /\ good y /\ tdims y = D /\ net_predict n (gather sel x) = (n2, Ok (gather sel y)) /\ good (gather sel y) /\ tdims (gather sel y) = D'.
Proof. exact @predict_gather. Qed.
(** No more rows than the batch has (a part of it, or a permutation): no further condition. *)
Theorem C107_fewer_rows : forall {T} {S : Scalar T} {G} {HR : Rng T G} (n : net T G) N ds D sel (x : tensor T),
  evaluates_all (N :: ds) (n_layers n) D -> good x -> tdims x = N :: ds -> rows_of N sel -> Zlen sel <= N ->
  exists n1 n2 y, net_predict n x = (n1, Ok y) /\ good y /\ tdims y = D /\ net_predict n (gather sel x) = (n2, Ok (gather sel y)).
Proof. exact @predict_rows. Qed.
(** Row by row: each row of the prediction is the prediction for that row alone. *)
Theorem C107_alone : forall {T} {S : Scalar T} {G} {HR : Rng T G} (n : net T G) N ds D (x : tensor T),
  evaluates_all (N :: ds) (n_layers n) D -> good x -> tdims x = N :: ds ->
  exists n1 y ds', net_predict n x = (n1, Ok y) /\ good y /\ D = N :: ds' /\ tdims y = D /\
    forall i, 0 <= i < N -> exists n2 yi, net_predict n (gather [i] x) = (n2, Ok yi) /\ tdims yi = 1 :: ds' /\ forall r, in_range ds' r -> el y (i :: r) = el yi (0 :: r).
Proof. exact @predict_single. Qed.


(** The condition is met by a network with every kind of layer in evaluation mode. *)
Definition oneE (ds : list Z) (v : Z) : tensor Z := tensor_of ds (fun _ => v).
Definition bnE (b : bool) (f : Z) : bn Z := mkBN f 1 0 (oneE [1; f] 1) (oneE [1; f] 0) (oneE [1; f] 0) (oneE [1; f] 1) None None None None None b.
Definition convE : conv Z := mkConv (ramp [2; 1; 2; 2]) (ramp [2; 1]) None None None 1 2 2 2 1 0 1.
Definition fcE : fc Z := mkFC (ramp [8; 3]) (ramp [1; 3]) None None None.
Definition netE : net Z Z := mkNet [LConv convE; LBN (bnE false 2); LAct (act_new ReLU); LPool (pool_new 2 1 0); LFlat flatten_new; LDrop (mkDrop 0 None false); LFC fcE; LAct (act_new Softmax)] None None 0.
Lemma oneE_good : forall ds v, pos_dims ds -> prod ds <= INT_MAX -> good (oneE ds v).
Proof. intros. apply good_tensor_of; auto. Qed.
Local Ltac ones := apply oneE_good; [repeat constructor; try discriminate|vm_compute; discriminate].
Example C107_case : evaluates_all [5; 1; 4; 4] (n_layers netE) [5; 3] /\ good (ramp [5; 1; 4; 4]) /\ rows_of 5 [3; 0; 4].
Proof.
  split; [|split; [ramps|split; [discriminate|repeat (apply Forall_cons; [lia|]); apply Forall_nil]]].
  unfold evaluates_all, netE. cbn [n_layers].
  apply acc_cons with [5; 2; 3; 3].
  { apply (ev_conv 5 4 4 convE); cbn [cv_w cv_b cv_kh cv_kw cv_oc cv_ic convE]; try reflexivity; try ramps; try lia; vm_compute; discriminate. }
  apply acc_cons with [5; 2; 3; 3].
  { apply (ev_bn 2); [|reflexivity|right; exists 5, 3, 3; reflexivity]; unfold bn_rows; cbn [bn_gamma bn_beta bn_rmean bn_rvar bnE]; (split; [|split; [|split]]); (split; [ones|reflexivity]). }
  apply acc_cons with [5; 2; 3; 3]; [apply ev_act; discriminate|].
  apply acc_cons with [5; 2; 2; 2]; [apply (ev_pool 5 2 3 3); cbn; lia|].
  apply acc_cons with [5; 8]; [apply (ev_flat 5 2 [2; 2])|].
  apply acc_cons with [5; 8]; [apply ev_drop; reflexivity|].
  apply acc_cons with [5; 3]; [apply (ev_fc 5 8 3); cbn [fc_w fc_b fcE]; try reflexivity; try ramps; vm_compute; discriminate|].
  apply acc_cons with [5; 3]; [apply ev_act; cbn; lia|apply acc_nil].
Qed.

Print Assumptions C107_chosen_rows.
Print Assumptions C107_fewer_rows.
Print Assumptions C107_alone.

(** ** C108: batch normalisation of a single row in training mode *)
(** The layer returns its shift for every input. *)
Theorem C108_layer : forall f (l : bn R) (x : tensor R), bn_rows f l -> bn_train l = true -> good x -> tdims x = [1; f] ->
  snd (bn_forward l x) = Ok (bn_beta l).
Proof. exact bn_single. Qed.
(** A network with such a layer predicts the same for all samples that reach the layer as one row of features, after
    the same number of random draws. *)
Theorem C108_network : forall {G} {HR : Rng R G} (n : net R G) before f l after (x1 x2 y1 y2 : tensor R) ls1 ls2 g,
  n_layers n = before ++ LBN l :: after -> bn_rows f l -> bn_train l = true ->
  forward_all before x1 (n_rng n) = (ls1, g, Ok y1) -> good y1 -> tdims y1 = [1; f] ->
  forward_all before x2 (n_rng n) = (ls2, g, Ok y2) -> good y2 -> tdims y2 = [1; f] ->
  snd (net_predict n x1) = snd (net_predict n x2).
Proof. exact @predict_erased. Qed.
(** Without random draws before the layer: any two samples passed alone. *)
Theorem C108_samples : forall {G} {HR : Rng R G} (n : net R G) ds before f l after (x1 x2 : tensor R),
  n_layers n = before ++ LBN l :: after -> evaluates_all (1 :: ds) before [1; f] -> bn_rows f l -> bn_train l = true ->
  good x1 -> tdims x1 = 1 :: ds -> good x2 -> tdims x2 = 1 :: ds -> snd (net_predict n x1) = snd (net_predict n x2).
Proof. exact @predict_same. Qed.
(** A network as constructed: a fully connected layer, batch normalisation, an activation. *)
Definition flatR (ds : list Z) (v : R) : tensor R := tensor_of ds (fun _ => v).
Definition fcS : fc R := mkFC (flatR [3; 2] 1%R) (flatR [1; 2] 0%R) None None None.
Definition bnS : bn R := mkBN 2 1%R 0%R (flatR [1; 2] 1%R) (flatR [1; 2] 0%R) (flatR [1; 2] 0%R) (flatR [1; 2] 1%R) None None None None None true.
Lemma flatR_good : forall ds v, pos_dims ds -> prod ds <= INT_MAX -> good (flatR ds v).
Proof. intros. apply good_tensor_of; auto. Qed.
Local Ltac flatRs := apply flatR_good; [repeat constructor; try discriminate|vm_compute; discriminate].
Example C108_case : evaluates_all [1; 3] [LFC fcS; LAct (act_new ReLU)] [1; 2] /\ bn_rows 2 bnS /\ bn_train bnS = true /\
  good (flatR [1; 3] 5%R) /\ snd (bn_forward bnS (flatR [1; 2] 15%R)) = Ok (flatR [1; 2] 0%R).
Proof.
  assert (HB : bn_rows 2 bnS) by (unfold bn_rows; cbn [bn_gamma bn_beta bn_rmean bn_rvar bnS]; (split; [|split; [|split]]); (split; [flatRs|reflexivity])).
  split; [|split; [exact HB|split; [reflexivity|split; [flatRs|]]]].
  - apply acc_cons with [1; 2]; [apply (ev_fc 1 3 2); cbn [fc_w fc_b fcS]; try reflexivity; try flatRs; vm_compute; discriminate|].
    apply acc_cons with [1; 2]; [apply ev_act; discriminate|apply acc_nil].
  - apply (C108_layer 2 bnS); [exact HB|reflexivity|flatRs|reflexivity].
Qed.
Print Assumptions C108_layer.
Print Assumptions C108_network.
Print Assumptions C108_samples.
