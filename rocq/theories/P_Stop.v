(** * A sample that makes training fail (C119) *)
From Verif Require Import Base Scalar Types Spec SpecNN SpecLayers M_Shape M_Tensor M_Adv M_Act M_Loss M_Layers M_Reg M_Opt M_Net SpecNet SpecRetry SpecStop
  L_Index L_Layers L_Net L_Retry L_Stop P_Tensor P_Layers P_Net P_Batch P_Retry.
Local Open Scope Z_scope.
Local Existing Instance counter_rng.

(** ** C119 "Training that fails does so at one sample, after all the samples before it, and leaves the network as that sample left it" *)
Theorem C119_where : forall {T} {S : Scalar T} {G} {HR : Rng T G} xs ts e (n n' : net T G) o, Zlen xs <= Zlen ts -> s_eq (s_z (Zlen xs)) zero = false ->
  net_train n xs ts e = (n', o) -> o <> Ok tt ->
  exists done x t rest m, concat (repeat (combine xs ts) (Z.to_nat e)) = done ++ (x, t) :: rest /\ fit n done m /\ stopped m x t o n'.
Proof. exact @train_stopped. Qed.
(** After a backward pass that succeeded the update throws nothing, for every optimizer. *)
Theorem C119_update : forall {T} {S : Scalar T} {G} (n n1 n' : net T G) d e, net_backward n d = (n1, Ok tt) -> net_update n1 <> (n', Throw e).
Proof. exact @update_never_throws. Qed.
(** So a sample that throws changes no parameter, and neither the optimizer nor the loss function. *)
Theorem C119_parameters : forall {T} {S : Scalar T} {G} {HR : Rng T G} (n n' : net T G) x t e, stopped n x t (Throw e) n' ->
  map layer_params (n_layers n') = map layer_params (n_layers n) /\ n_loss n' = n_loss n /\ n_opt n' = n_opt n.
Proof. exact @stopped_params. Qed.
(** Unless a layer is in training mode, predictions are those before the sample, *)
Theorem C119_predictions : forall {T} {S : Scalar T} {G} {HR : Rng T G} (n n' : net T G) x t ex z, net_in_mode false n -> stopped n x t (Throw ex) n' ->
  snd (net_predict n' z) = snd (net_predict n z).
Proof. exact @skip_predict. Qed.
(** and training goes on as if the sample had not been given. *)
Theorem C119_skip : forall {T} {S : Scalar T} {G} {HR : Rng T G} (n n' k : net T G) x t ex xs ts e, net_in_mode false n -> no_flatten n -> stopped n x t (Throw ex) n' ->
  xs <> [] -> 0 < e -> net_train n xs ts e = (k, Ok tt) -> net_train n' xs ts e = (k, Ok tt).
Proof. exact @skip_plain. Qed.
(** With Flatten layers: whenever the training works without remembered shapes. *)
Theorem C119_skip_flatten : forall {T} {S : Scalar T} {G} {HR : Rng T G} (n n' k : net T G) x t ex xs ts e, net_in_mode false n -> stopped n x t (Throw ex) n' ->
  xs <> [] -> 0 < e -> net_train (unseen n) xs ts e = (k, Ok tt) -> net_train n' xs ts e = (k, Ok tt).
Proof. exact @skip_train. Qed.

Lemma with_snd : forall {A B} (p : A * B) o, snd p = o -> p = (fst p, o). Proof. intros A B [a b] o <-. reflexivity. Qed.
(** Both conditions are needed.  A Flatten layer remembers the shape of the bad sample, *)
Definition after_images : net Z Z := fst (net_train netF [ramp [2; 2; 3]] [ramp [2; 1]] 1).
Lemma flat_case : exists (n n' k : net Z Z) x t, net_in_mode false n /\ stopped n x t (Throw InvalidArgument) n' /\
  net_train n [ramp [2; 6]] [ramp [2; 1]] 1 = (k, Ok tt) /\ snd (net_train n' [ramp [2; 6]] [ramp [2; 1]] 1) = Throw RuntimeError.
Proof.
  exists after_images, (fst (net_predict after_images (ramp [1; 2; 2]))), (fst (net_train after_images [ramp [2; 6]] [ramp [2; 1]] 1)), (ramp [1; 2; 2]), (ramp [1; 1]).
  split; [unfold net_in_mode; vm_compute; repeat constructor|]. split; [apply (stop_predict _ _ _ _ (Throw InvalidArgument)); [apply with_snd; vm_compute; reflexivity|discriminate]|]. split; [apply with_snd|]; vm_compute; reflexivity.
Qed.
Theorem C119_flatten_refuted : exists (n n' k : net Z Z) x t, net_in_mode false n /\ stopped n x t (Throw InvalidArgument) n' /\
  net_train n [ramp [2; 6]] [ramp [2; 1]] 1 = (k, Ok tt) /\ snd (net_train n' [ramp [2; 6]] [ramp [2; 1]] 1) = Throw RuntimeError.
Proof. exact flat_case. Qed.
(** and batch normalisation in training mode takes a sample whose target does not fit into its running statistics. *)
Definition netN : net Z Z := net_compile netB MSE (OSGD (sgd_new 1 0 0 0 false)).
Lemma norm_case : exists (n' : net Z Z) x t z a b, stopped netN x t (Throw InvalidArgument) n' /\
  snd (net_predict (net_set_mode netN false) z) = Ok a /\ snd (net_predict (net_set_mode n' false) z) = Ok b /\ a <> b.
Proof.
  exists (fst (net_predict netN (ramp [2; 1]))), (ramp [2; 1]), (ramp [3; 1]), (ramp [7; 1]). do 2 eexists.
  split; [|split; [vm_compute; reflexivity|]; split; [vm_compute; reflexivity|discriminate]].
  destruct (net_predict netN (ramp [2; 1])) as (m & o) eqn:E. assert (EO : o = snd (net_predict netN (ramp [2; 1]))) by (rewrite E; reflexivity). vm_compute in EO. subst o.
  eapply (stop_loss _ _ _ _ _ MSE (Throw InvalidArgument)); [exact E|reflexivity|vm_compute; reflexivity|discriminate].
Qed.
Theorem C119_training_mode_refuted : exists (n' : net Z Z) x t z a b, stopped netN x t (Throw InvalidArgument) n' /\
  snd (net_predict (net_set_mode netN false) z) = Ok a /\ snd (net_predict (net_set_mode n' false) z) = Ok b /\ a <> b.
Proof. exact norm_case. Qed.

(** A dataset whose second target has the wrong shape: the first sample is learnt, the second throws, training on the third goes on. *)
Definition three_x : list (tensor Z) := [oneZ 1; oneZ 2; oneZ 1].
Definition three_t : list (tensor Z) := [oneZ 3; ramp [2; 2]; oneZ 5].
Definition stopped_net : net Z Z := fst (net_train netT three_x three_t 1).
Example C119_case : snd (net_train netT three_x three_t 1) = Throw InvalidArgument /\ s_eq (s_z (T := Z) (Zlen three_x)) zero = false /\ no_flatten netT /\ net_in_mode false netT /\
  snd (net_train stopped_net [oneZ 1] [oneZ 5] 1) = Ok tt /\ map layer_params (n_layers stopped_net) <> map layer_params (n_layers netT) /\
  map layer_params (n_layers stopped_net) = map layer_params (n_layers (fst (net_train netT [oneZ 1] [oneZ 3] 1))).
Proof.
  split; [vm_compute; reflexivity|]. split; [vm_compute; reflexivity|]. split; [repeat constructor|]. split; [repeat constructor|].
  split; [vm_compute; reflexivity|]. split; [vm_compute; discriminate|vm_compute; reflexivity].
Qed.
Example C119_update_case : snd (net_backward (fst (net_predict netT (oneZ 1))) (oneZ 1)) = Ok tt.
Proof. vm_compute. reflexivity. Qed.
Print Assumptions C119_where.
Print Assumptions C119_update.
Print Assumptions C119_parameters.
Print Assumptions C119_predictions.
Print Assumptions C119_skip.
Print Assumptions C119_skip_flatten.
Print Assumptions C119_flatten_refuted.
Print Assumptions C119_training_mode_refuted.
