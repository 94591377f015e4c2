(** * Failed backward passes (C113) and predictions between training runs (C114) *)
From Verif Require Import Base Scalar Types Spec SpecNN SpecLayers M_Shape M_Tensor M_Adv M_Act M_Loss M_Layers M_Reg M_Opt M_Net SpecNet SpecRetry
  L_Index L_Layers L_Net L_Retry P_Tensor P_Layers P_Net P_Batch.
Local Open Scope Z_scope.
Local Existing Instance counter_rng.

(** ** C113 "A backward pass that fails leaves the network as it was" is false: the gradients of the convolution are
    partly overwritten, the fully connected layer is left with a new weight gradient and the old bias gradient. *)
Definition seen (l : layer Z) (x : tensor Z) : layer Z := fst (fst (layer_forward l x 0)).
Definition conv1 : layer Z := LConv (mkConv (ramp [1; 1; 2; 2]) (ramp [1; 1]) None None None 1 1 2 2 1 0 1).
Definition after_one : layer Z := fst (layer_backward (seen conv1 (ramp [1; 1; 3; 3])) (ramp [1; 1; 2; 2])).
Definition fc_after : layer Z := fst (layer_backward (seen (LFC (fcZ 3 2)) (ramp [1; 3])) (ramp [1; 2])).
Lemma failed_case : (exists d, snd (layer_backward after_one d) = Throw OutOfRange /\ layer_grads (fst (layer_backward after_one d)) <> layer_grads after_one) /\
  (exists d w w' b, snd (layer_backward fc_after d) = Throw RuntimeError /\ layer_grads fc_after = Some (w, b) /\ layer_grads (fst (layer_backward fc_after d)) = Some (w', b) /\ w' <> w).
Proof.
  split; [exists (ramp [1; 1; 3; 3]); split; [vm_compute; reflexivity|vm_compute; discriminate]|].
  exists (ramp [1; 5]). do 3 eexists. split; [vm_compute; reflexivity|]. split; [vm_compute; reflexivity|]. split; [vm_compute; reflexivity|discriminate].
Qed.
Theorem C113_refuted : (exists d, snd (layer_backward after_one d) = Throw OutOfRange /\ layer_grads (fst (layer_backward after_one d)) <> layer_grads after_one) /\
  (exists d w w' b, snd (layer_backward fc_after d) = Throw RuntimeError /\ layer_grads fc_after = Some (w, b) /\ layer_grads (fst (layer_backward fc_after d)) = Some (w', b) /\ w' <> w).
Proof. exact failed_case. Qed.
(** But nothing except stored gradients changes, for every network, gradient and outcome, *)
Theorem C113_only_gradients : forall {T} {S : Scalar T} (ls : list (layer T)) (d : tensor T), map without_grads (fst (backward_all ls d)) = map without_grads ls.
Proof. exact @backward_keeps. Qed.
(** and the next backward pass that succeeds gives what it would have given without the failed one: same result, same
    gradients, same layers. *)
Theorem C113_recovers : forall {T} {S : Scalar T} (ls : list (layer T)) (d d' y : tensor T), snd (backward_all ls d') = Ok y -> backward_all (fst (backward_all ls d)) d' = backward_all ls d'.
Proof. exact @backward_again. Qed.
Example C113_case : snd (backward_all [after_one] (ramp [1; 1; 3; 3])) = Throw OutOfRange /\ exists y, snd (backward_all [after_one] (ramp [1; 1; 2; 2])) = Ok y.
Proof. split; [vm_compute; reflexivity|]. eexists. vm_compute. reflexivity. Qed.
Print Assumptions C113_refuted.
Print Assumptions C113_only_gradients.
Print Assumptions C113_recovers.

(** ** C114 "Predictions made between two training runs do not change the second" *)
(** Whenever the training works for the network without remembered inputs, the network gives the same result for it
    with or without any number of predictions before, on any tensors, successful or not. *)
Theorem C114_evaluated_partial : forall {T} {S : Scalar T} {G} {HR : Rng T G} (n n1 : net T G) zs m xs ts e, xs <> [] -> 0 < e ->
  net_train (unseen (net_set_mode n m)) xs ts e = (n1, Ok tt) ->
  net_train (net_set_mode (evaluated n zs) m) xs ts e = (n1, Ok tt) /\ net_train (net_set_mode n m) xs ts e = (n1, Ok tt).
Proof. exact @train_evaluated. Qed.
(** Without Flatten layers: whenever the training works. *)
Theorem C114_no_flatten_partial : forall {T} {S : Scalar T} {G} {HR : Rng T G} (n n1 : net T G) zs m xs ts e, no_flatten n -> xs <> [] -> 0 < e ->
  net_train (net_set_mode n m) xs ts e = (n1, Ok tt) -> net_train (net_set_mode (evaluated n zs) m) xs ts e = (n1, Ok tt).
Proof. exact @train_plain. Qed.
(** A Flatten layer that is given (batch, features) keeps the shape of an earlier input: training works after images
    with as many elements, and throws after one prediction for a smaller image. *)
Definition netF : net Z Z := net_compile (net_add (net_add (net_new 0) (LFlat flatten_new)) (LFC (fcZ 6 1))) MSE (OSGD (sgd_new 1 0 0 0 false)).
Lemma flatten_case : exists (n1 n2 : net Z Z), net_train netF [ramp [2; 2; 3]] [ramp [2; 1]] 1 = (n1, Ok tt) /\ net_train (net_set_mode n1 true) [ramp [2; 6]] [ramp [2; 1]] 1 = (n2, Ok tt) /\
  snd (net_train (net_set_mode (evaluated n1 [ramp [1; 2; 3]]) true) [ramp [2; 6]] [ramp [2; 1]] 1) = Throw RuntimeError.
Proof. do 2 eexists. split; [vm_compute; reflexivity|]. split; vm_compute; reflexivity. Qed.
Theorem C114_flatten_refuted : exists (n1 n2 : net Z Z), net_train netF [ramp [2; 2; 3]] [ramp [2; 1]] 1 = (n1, Ok tt) /\ net_train (net_set_mode n1 true) [ramp [2; 6]] [ramp [2; 1]] 1 = (n2, Ok tt) /\
  snd (net_train (net_set_mode (evaluated n1 [ramp [1; 2; 3]]) true) [ramp [2; 6]] [ramp [2; 1]] 1) = Throw RuntimeError.
Proof. exact flatten_case. Qed.
(** In training mode a prediction changes the running statistics of batch normalisation, and with them later predictions. *)
Definition bn8 : layer Z := LBN (mkBN 1 8 0 (oneE [1; 1] 1) (oneE [1; 1] 0) (oneE [1; 1] 0) (oneE [1; 1] 1) None None None None None true).
Definition netB : net Z Z := net_add (net_new 0) bn8.
Lemma training_mode_case : exists x y z a b, snd (net_predict netB x) = Ok y /\ snd (net_predict (net_set_mode netB false) z) = Ok a /\ snd (net_predict (net_set_mode (fst (net_predict netB x)) false) z) = Ok b /\ a <> b.
Proof. exists (ramp [2; 1]). eexists. exists (ramp [7; 1]). do 2 eexists. split; [vm_compute; reflexivity|]. split; [vm_compute; reflexivity|]. split; [vm_compute; reflexivity|discriminate]. Qed.
Theorem C114_training_mode_refuted : exists x y z a b, snd (net_predict netB x) = Ok y /\ snd (net_predict (net_set_mode netB false) z) = Ok a /\ snd (net_predict (net_set_mode (fst (net_predict netB x)) false) z) = Ok b /\ a <> b.
Proof. exact training_mode_case. Qed.
(** The condition is met by a network with a Flatten layer that is trained on images. *)
Example C114_case : exists n1, net_train (unseen (net_set_mode netF true)) [ramp [2; 2; 3]; ramp [1; 2; 3]] [ramp [2; 1]; ramp [1; 1]] 2 = (n1, Ok tt) /\
  snd (net_predict (net_set_mode netF false) (ramp [5; 5])) = Throw InvalidArgument.
Proof. eexists. split; vm_compute; reflexivity. Qed.
Example C114_plain_case : no_flatten netT /\ exists n1, net_train (net_set_mode netT true) [oneZ 1] [oneZ 3] 2 = (n1, Ok tt).
Proof. split; [repeat constructor|]. eexists. vm_compute. reflexivity. Qed.
Print Assumptions C114_evaluated_partial.
Print Assumptions C114_no_flatten_partial.
Print Assumptions C114_flatten_refuted.
Print Assumptions C114_training_mode_refuted.
