(** * Stride, padding and dilation of a convolution are never looked at (C147) *)
From Verif Require Import Base Scalar Types Spec SpecSettings M_Shape M_Tensor M_Adv M_Act M_Loss M_Layers M_Reg M_Opt M_Net L_Settings P_Layers P_Ex.
Local Open Scope Z_scope.

(** ** C147
    In any arithmetic, without any hypothesis on sizes or settings.  [same_but_settings n n']: two networks that are equal except that their convolutions may have any
    strides, paddings and dilations, also zero or negative ones.  Both answer every input alike, with the same prediction or the same failure, and are again such a pair. *)
Theorem C147_prediction : forall {T} {S : Scalar T} {G} {HR : Rng T G} (n n' : net T G) x, same_but_settings n n' ->
  snd (net_predict n' x) = snd (net_predict n x) /\ same_but_settings (fst (net_predict n x)) (fst (net_predict n' x)).
Proof. exact @sett_predict. Qed.
Theorem C147_predictions : forall {T} {S : Scalar T} {G} {HR : Rng T G} xs (n n' : net T G), same_but_settings n n' ->
  snd (net_predict_all n' xs) = snd (net_predict_all n xs) /\ same_but_settings (fst (net_predict_all n xs)) (fst (net_predict_all n' xs)).
Proof. exact @sett_predict_all. Qed.
(** Training, with every loss and optimizer and any number of epochs, ends alike, and leaves all weights, gradients and averages equal. *)
Theorem C147_training : forall {T} {S : Scalar T} {G} {HR : Rng T G} (n n' : net T G) xs ts k, same_but_settings n n' ->
  snd (net_train n' xs ts k) = snd (net_train n xs ts k) /\ same_but_settings (fst (net_train n xs ts k)) (fst (net_train n' xs ts k)).
Proof. exact @sett_train. Qed.
(** A kernel of size 2 x 2 on an image of size 4 x 4.  With stride 2 there should be 2 x 2 results; there are 3 x 3, as with stride 1, before and after training. *)
Definition sett_net (stride pad dil : Z) : net Z Z :=
  mkNet [LConv (mkConv (ramp [1; 1; 2; 2]) (ramp [1; 1]) None None None 1 1 2 2 stride pad dil)] (Some MSE) (Some (OSGD (sgd_new 1 0 0 0 false))) 0.
Example C147_case : same_but_settings (sett_net 1 0 1) (sett_net 2 3 0) /\
  snd (net_predict (HR := still_rng) (sett_net 2 3 0) (ramp [1; 1; 4; 4])) = Ok (mkTensor (shape_of [1; 1; 3; 3]) [24; 30; 36; 48; 54; 60; 72; 78; 84]) /\
  (exists n1, net_train (HR := still_rng) (sett_net 2 3 0) [ramp [1; 1; 4; 4]] [ramp [1; 1; 3; 3]] 1 = (n1, Ok tt) /\ n_layers n1 <> n_layers (sett_net 2 3 0) /\
     snd (net_predict (HR := still_rng) n1 (ramp [1; 1; 4; 4])) <> snd (net_predict (HR := still_rng) (sett_net 2 3 0) (ramp [1; 1; 4; 4]))).
Proof.
  split; [|split; [vm_compute; reflexivity|]].
  - split; [|repeat split]. constructor; [|constructor]. right. do 2 eexists. split; [reflexivity|]. split; [reflexivity|]. exists 2, 3, 0. reflexivity.
  - eexists. split; [vm_compute; reflexivity|]. split; vm_compute; discriminate.
Qed.
Print Assumptions C147_prediction.
Print Assumptions C147_predictions.
Print Assumptions C147_training.
