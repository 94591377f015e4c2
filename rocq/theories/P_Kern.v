(** * Only the first kernel of a convolution learns (C145) *)
From Coq Require Import String Reals Lra.
From Verif Require Import Base Scalar ScalarR Types Spec SpecNN SpecLayers SpecOpt M_Shape M_Tensor M_Adv M_Act M_Loss M_Layers M_Reg M_Opt M_Net M_Text M_Log SpecNet SpecLog SpecFit
  L_Index L_Tensor L_Nest L_Conv L_Layers L_Matmul L_Fit L_Kern SpecR SpecF32 L_KernF P_Tensor P_Layers P_Net P_Ex.
Local Open Scope Z_scope.
Local Open Scope list_scope.

(** ** C145
    In exact arithmetic.  [no_penalty o]: SGD, RMSProp or Adam as constructed, without weight decay or penalties.  Let a network whose layers fit together have a convolution
    [l] anywhere, and train it on any samples for any number of epochs.  Training succeeds, and afterwards the convolution in the same place has the weights it started
    with, except those of the first channel of the first kernel, and the biases it started with, except the first. *)
Theorem C145_kernels : forall (K : R), let sc : Scalar R := RInf K in forall G (HR : Rng R G) (show : R -> string) (n : net R G) pre l rest ds ds' lo o xs ts e,
  n_layers n = pre ++ LConv l :: rest -> accepts_all ds (n_layers n) ds' -> n_loss n = Some lo -> n_opt n = Some o -> no_penalty o ->
  0 < Zlen xs <= Zlen ts -> Zlen xs <= INT_MAX -> 0 <= e -> e * Zlen xs * Zlen (n_layers n) <= INT_MAX -> Forall (fun x => good x /\ tdims x = ds) xs -> Forall (target_fits lo ds') ts ->
  exists n' out pre' l' rest', net_train_report show n xs ts e = ((n', out), Ok tt) /\ n_layers n' = pre' ++ LConv l' :: rest' /\ Zlen pre' = Zlen pre /\ tdims (cv_w l') = tdims (cv_w l) /\ tdims (cv_b l') = tdims (cv_b l) /\
    (forall o c p q, in_range (tdims (cv_w l)) [o; c; p; q] -> o <> 0 \/ c <> 0 -> el (cv_w l') [o; c; p; q] = el (cv_w l) [o; c; p; q]) /\
    (forall o, in_range (tdims (cv_b l)) [o; 0] -> o <> 0 -> el (cv_b l') [o; 0] = el (cv_b l) [o; 0]).
Proof. exact @kernels_still. Qed.
Print Assumptions C145_kernels.

(** Two kernels of size 2 x 2 for images of two channels, between a ReLU and a flattening layer, with Adam's default settings. *)
Definition kern_conv : conv R := mkConv (constR [2; 2; 2; 2] 1) (constR [2; 1] 0) None None None 2 2 2 2 1 0 1.
Example C145_case : let sc : Scalar R := RInf 0 in
  accepts_all [1; 2; 3; 3] [LAct (act_new ReLU); LConv kern_conv; LFlat flatten_new] [1; 8] /\
  no_penalty (OAdam (adam_new (1 / 1000) (9 / 10) (999 / 1000) (1 / 100000000) 0 0 0 1)%R) /\ good (constR [1; 2; 3; 3] 1) /\ target_fits MSE [1; 8] (constR [1; 8] 1) /\ in_range (tdims (cv_w kern_conv)) [1; 0; 1; 1].
Proof.
  intros sc. assert (G4 : forall a b c d v, 0 < a -> 0 < b -> 0 < c -> 0 < d -> a * (b * (c * d)) <= INT_MAX -> good (constR [a; b; c; d] v)) by (intros; apply good_4; auto).
  assert (G2 : forall a b v, 0 < a -> 0 < b -> a * b <= INT_MAX -> good (constR [a; b] v)) by (intros; apply good_2; auto).
  split; [|split; [constructor; lra || lia|split; [apply G4; lia || (vm_compute; discriminate)|split; [split; [apply G2; lia || (vm_compute; discriminate)|left; reflexivity]|apply in_range4; cbn; lia]]]].
  econstructor; [apply acc_act; discriminate|]. econstructor; [|econstructor; [|constructor]].
  - apply (acc_conv 1 3 3 kern_conv); try reflexivity; try (cbn; lia); try (vm_compute; discriminate); [apply G4|apply G2]; lia || (vm_compute; discriminate).
  - apply (acc_flat 1 2 [2; 2]). discriminate.
Qed.
(** The same on whole numbers: after one epoch the first kernel's weights for the first channel, and its bias, have moved, and nothing else has. *)
Definition kernZ : conv Z := mkConv (ramp [2; 2; 1; 1]) (ramp [2; 1]) None None None 2 2 1 1 1 0 1.
Example C145_first_moves : exists n' l', net_train (HR := still_rng) (mkNet [LConv kernZ] (Some MSE) (Some (OSGD (sgd_new 1 0 0 0 false))) 0) [ramp [1; 2; 2; 2]] [tensor_of [1; 2; 2; 2] (fun _ => 100)] 1 = (n', Ok tt) /\
  n_layers n' = [LConv l'] /\ tdata (cv_w kernZ) = [0; 1; 2; 3] /\ tdata (cv_w l') = [150; 1; 2; 3] /\ tdata (cv_b kernZ) = [0; 1] /\ tdata (cv_b l') = [100; 1].
Proof. do 2 eexists. vm_compute. repeat split. Qed.
(** In float32, for SGD without momentum and weight decay, at any finite rate: every one of these weights and biases that is finite keeps its value, whatever the
    samples are, even if NaN and infinities arise elsewhere in the network. *)
Theorem C145_float : forall lm, let sc : Scalar f32 := F32Scalar lm in forall G (HR : Rng f32 G) lr damp nest (n : net f32 G) pre l rest ds ds' lo xs ts e, f32_finite lr ->
  n_layers n = pre ++ LConv l :: rest -> accepts_all ds (n_layers n) ds' -> n_loss n = Some lo -> n_opt n = Some (OSGD (sgd_new lr zero damp zero nest)) ->
  0 < Zlen xs <= Zlen ts -> Zlen xs <= INT_MAX -> 0 <= e -> e * Zlen xs * Zlen (n_layers n) <= INT_MAX -> Forall (fun x => good x /\ tdims x = ds) xs -> Forall (target_fits lo ds') ts ->
  exists n' pre' l' rest', net_train n xs ts e = (n', Ok tt) /\ n_layers n' = pre' ++ LConv l' :: rest' /\ Zlen pre' = Zlen pre /\ tdims (cv_w l') = tdims (cv_w l) /\ tdims (cv_b l') = tdims (cv_b l) /\
    (forall o c p q, in_range (tdims (cv_w l)) [o; c; p; q] -> o <> 0 \/ c <> 0 -> f32_finite (el (cv_w l) [o; c; p; q]) -> f32_finite (el (cv_w l') [o; c; p; q]) /\ f32_value (el (cv_w l') [o; c; p; q]) = f32_value (el (cv_w l) [o; c; p; q])) /\
    (forall o, in_range (tdims (cv_b l)) [o; 0] -> o <> 0 -> f32_finite (el (cv_b l) [o; 0]) -> f32_finite (el (cv_b l') [o; 0]) /\ f32_value (el (cv_b l') [o; 0]) = f32_value (el (cv_b l) [o; 0])).
Proof. exact kernels32. Qed.
Print Assumptions C145_float.
Example C145_float_case : forall lm, let sc : Scalar f32 := F32Scalar lm in let l := mkConv (tensor_of [2; 1; 2; 2] (fun _ => one)) (tensor_of [2; 1] (fun _ => zero)) None None None 1 2 2 2 1 0 1 in
  f32_finite (s_lit 1 10) /\ accepts_all [1; 1; 3; 3] [LConv l; LFlat flatten_new] [1; 8] /\ in_range (tdims (cv_w l)) [1; 0; 1; 1] /\ f32_finite (el (cv_w l) [1; 0; 1; 1]).
Proof.
  intros lm sc l. split; [vm_compute; reflexivity|]. split; [|split; [apply in_range4; cbn; lia|vm_compute; exact I]].
  econstructor; [|econstructor; [|constructor]].
  - apply (acc_conv 1 3 3 l); try reflexivity; try (cbn; lia); try (vm_compute; discriminate); [apply good_4|apply good_2]; lia || (vm_compute; discriminate).
  - apply (acc_flat 1 2 [2; 2]). discriminate.
Qed.
