(** * Kernels behind another convolution (C146) *)
From Verif Require Import Base Scalar Types Spec SpecNN SpecLayers SpecDeep M_Shape M_Tensor M_Adv M_Act M_Loss M_Layers M_Reg M_Opt M_Net SpecNet L_Index L_Tensor L_Nest L_Matmul L_Layers L_Conv L_Deep P_Tensor P_Layers P_Ex.
Local Open Scope Z_scope.
Local Open Scope list_scope.

(** ** C146
    In any arithmetic.  [first_kernel l l']: two convolutions of the same sizes that agree in the weights of the first kernel for the first channel and in the first bias.
    [by_channel]: max-pooling, dropout and all activations but Softmax.  In a network whose layers fit together, let [l] be a convolution followed, after any number of such layers,
    by another convolution.  Replacing [l] by [l'] changes no prediction: all other kernels, weights and biases of [l] have no influence at all. *)
Theorem C146_kernels_unused : forall {T} {S : Scalar T} {G} {HR : Rng T G} (n n' : net T G) pre l l' mid l2 rest ds ds' (x : tensor T),
  n_layers n = pre ++ LConv l :: mid ++ LConv l2 :: rest -> n_layers n' = pre ++ LConv l' :: mid ++ LConv l2 :: rest ->
  first_kernel l l' -> Forall by_channel mid -> n_rng n' = n_rng n -> accepts_all ds (n_layers n) ds' -> good x -> tdims x = ds ->
  exists y, snd (net_predict n x) = Ok y /\ tdims y = ds' /\ snd (net_predict n' x) = Ok y.
Proof. exact @deep_predict. Qed.
Print Assumptions C146_kernels_unused.

(** Two kernels, of which the second is given two different values, then ReLU, pooling and a convolution of the two channels. *)
Definition deep1 (v : Z) : conv Z := mkConv (tensor_of [2; 1; 1; 1] (fun idx => if nth 0 idx 0 =? 0 then 1 else v)) (tensor_of [2; 1] (fun idx => nth 0 idx 0 * v)) None None None 1 2 1 1 1 0 1.
Definition deep2 : conv Z := mkConv (ramp [1; 2; 2; 2]) (ramp [1; 1]) None None None 2 1 2 2 1 0 1.
Definition deep_net (k : conv Z) (r : list (layer Z)) : net Z Z := mkNet (LConv k :: [LAct (act_new ReLU); LPool (pool_new 2 2 0)] ++ r) None None 0.
Definition deep_tail : list (layer Z) := [LConv deep2; LFlat flatten_new].
Example C146_case : first_kernel (deep1 3) (deep1 70) /\ Forall by_channel [LAct (act_new ReLU); LPool (pool_new (T := Z) 2 2 0)] /\
  accepts_all [1; 1; 4; 4] (n_layers (deep_net (deep1 3) deep_tail)) [1; 1] /\ good (ramp [1; 1; 4; 4]) /\
  snd (net_predict (HR := still_rng) (deep_net (deep1 3) deep_tail) (ramp [1; 1; 4; 4])) = Ok (mkTensor (shape_of [1; 1]) [78]).
Proof.
  assert (GW : forall v, good (cv_w (deep1 v))) by (intros v; apply good_4; lia || (vm_compute; discriminate)). assert (GB : forall v, good (cv_b (deep1 v))) by (intros v; apply good_2; lia || (vm_compute; discriminate)).
  split; [|split; [|split; [|split; [ramps|vm_compute; reflexivity]]]].
  - repeat split; try reflexivity; try apply GW; try apply GB. intros p q HI. unfold deep1. cbn [cv_w]. rewrite !el_tensor_of by exact HI. reflexivity.
  - repeat constructor. discriminate.
  - econstructor; [|econstructor; [|econstructor; [|econstructor; [|econstructor; [|constructor]]]]].
    + apply (acc_conv 1 4 4 (deep1 3)); try reflexivity; try (cbn; lia); try (vm_compute; discriminate); [apply GW|apply GB].
    + apply acc_act. discriminate.
    + apply (acc_pool 1 2 4 4); cbn; lia.
    + apply (acc_conv 1 2 2 deep2); try reflexivity; try (cbn; lia); try (vm_compute; discriminate); ramps.
    + apply (acc_flat 1 1 [1; 1]). discriminate.
Qed.
(** Without the second convolution the second kernel does count; and the first kernel always does. *)
Example C146_needed : snd (net_predict (HR := still_rng) (deep_net (deep1 3) []) (ramp [1; 1; 4; 4])) <> snd (net_predict (HR := still_rng) (deep_net (deep1 70) []) (ramp [1; 1; 4; 4])) /\
  snd (net_predict (HR := still_rng) (deep_net (mkConv (tensor_of [2; 1; 1; 1] (fun _ => 5)) (ramp [2; 1]) None None None 1 2 1 1 1 0 1) deep_tail) (ramp [1; 1; 4; 4])) <> snd (net_predict (HR := still_rng) (deep_net (deep1 3) deep_tail) (ramp [1; 1; 4; 4])).
Proof. split; vm_compute; discriminate. Qed.
