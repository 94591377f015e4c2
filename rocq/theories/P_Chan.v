(** * Only the first channel of an image counts (C144) *)
From Verif Require Import Base Scalar Types Spec SpecNN SpecLayers SpecChan M_Shape M_Tensor M_Adv M_Act M_Loss M_Layers M_Reg M_Opt M_Net L_Index L_Tensor L_Nest L_Conv L_Chan P_Tensor P_Layers.
Local Open Scope Z_scope.

(** ** C144
    In any arithmetic.  [first_channel x x']: two batches of images of the same sizes that agree in their first channel.  A network with a convolution as its first layer
    answers both alike, whether with a prediction or with a failure, and is left in the same state but for the remembered images. *)
Theorem C144_prediction : forall {T} {S : Scalar T} {G} {HR : Rng T G} (n n' : net T G) x x', same_network n n' -> first_channel x x' ->
  snd (net_predict n' x') = snd (net_predict n x) /\ same_network (fst (net_predict n x)) (fst (net_predict n' x')).
Proof. exact @chan_predict. Qed.
(** The same holds for training, with every loss and optimizer and any number of epochs. *)
Theorem C144_training : forall {T} {S : Scalar T} {G} {HR : Rng T G} (n n' : net T G) xs xs' ts k, same_network n n' -> Forall2 first_channel xs xs' ->
  snd (net_train n' xs' ts k) = snd (net_train n xs ts k) /\ same_network (fst (net_train n xs ts k)) (fst (net_train n' xs' ts k)).
Proof. exact @chan_train. Qed.
(** From a network that has not been used yet: training on images in other colours, and predicting for an image in other colours, gives the same. *)
Theorem C144_colours : forall {T} {S : Scalar T} {G} {HR : Rng T G} (n : net T G) l r xs xs' ts k x x', n_layers n = LConv l :: r -> cv_in l = None -> Forall2 first_channel xs xs' -> first_channel x x' ->
  snd (net_train n xs' ts k) = snd (net_train n xs ts k) /\ snd (net_predict (fst (net_train n xs' ts k)) x') = snd (net_predict (fst (net_train n xs ts k)) x).
Proof. exact @chan_history. Qed.
(** The weights for the other channels get the gradient 0, and so do those of all kernels but the first. *)
Theorem C144_gradient : forall {T} {S : Scalar T} (l : conv T) x d n m h w o c p q, conv_wf l -> cv_in l = Some x -> good x -> good d -> tdims x = [n; cv_ic l; h; w] -> tdims d = [m; cv_oc l; h - cv_kh l + 1; w - cv_kw l + 1] ->
  0 <= o < cv_oc l -> 0 <= c < cv_ic l -> 0 <= p < cv_kh l -> 0 <= q < cv_kw l -> (o <> 0 \/ c <> 0) ->
  exists gw, cv_gw (fst (conv_backward l d)) = Some gw /\ el gw [o; c; p; q] = zero.
Proof. exact @chan_gradient. Qed.
(** Two images with other second channels; the first channel does count. *)
Definition chan_conv : conv Z := mkConv (ramp [1; 2; 2; 2]) (ramp [1; 1]) None None None 2 1 2 2 1 0 1.
Definition green (k : Z) : tensor Z := tensor_of [1; 2; 3; 3] (fun idx => nth 2 idx 0 + k * nth 1 idx 0).
Example C144_case : first_channel (green 0) (green 5) /\ green 5 <> green 0 /\ cv_in chan_conv = None /\ conv_wf chan_conv /\
  snd (conv_forward chan_conv (green 0)) = snd (conv_forward chan_conv (green 5)) /\ snd (conv_forward chan_conv (green 0)) = Ok (mkTensor (shape_of [1; 1; 2; 2]) [5; 5; 11; 11]) /\
  snd (conv_forward chan_conv (ramp [1; 2; 3; 3])) <> snd (conv_forward chan_conv (green 0)).
Proof.
  split; [|split; [vm_compute; discriminate|split; [reflexivity|split; [split; [ramps|split; [reflexivity|split; [ramps|reflexivity]]]|]]]].
  - assert (GG : forall k, good (green k)) by (intros k; apply good_4; lia || (vm_compute; discriminate)). split; [apply GG|]. split; [apply GG|]. split; [reflexivity|].
    intros b i j HI. change (in_range [1; 2; 3; 3] [b; 0; i; j]) in HI. unfold green. rewrite !el_tensor_of by exact HI. cbn [nth]. lia.
  - split; [vm_compute; reflexivity|]. split; [vm_compute; reflexivity|]. vm_compute. discriminate.
Qed.
Print Assumptions C144_prediction.
Print Assumptions C144_training.
Print Assumptions C144_colours.
Print Assumptions C144_gradient.
