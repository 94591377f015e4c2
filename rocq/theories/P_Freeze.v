(** * A learning rate of zero (C141) *)
From Coq Require Import Reals Lra SpecFloat.
From Verif Require Import Base Scalar ScalarR Types Spec SpecR SpecNN SpecLayers SpecOpt M_Shape M_Tensor M_Adv M_Act M_Loss M_Layers M_Reg M_Opt M_Net SpecNet SpecF32 SpecFreeze L_Index L_Tensor L_Fit L_Freeze L_FreezeF P_Net.
Local Open Scope Z_scope.

(** ** C141
    Exact arithmetic ([K] is the value of infinity, which only max pooling uses).  [rate_zero o]: the optimizer was given the learning rate 0, whatever its
    other options, state and penalties are.  Training any network on any data, well-formed or not, then leaves every weight, bias, scale and
    shift as it is, even if training fails on the way. *)
Theorem C141_training : forall (K : R), let sc : Scalar R := RInf K in forall G (HR : Rng R G) (n n' : net R G) o xs ts e r,
  n_opt n = Some o -> rate_zero o -> net_train n xs ts e = (n', r) -> map layer_params (n_layers n') = map layer_params (n_layers n).
Proof. exact @training_still. Qed.
(** The same for every history of calls of optimize, each with any tensors and no override (or one that is not positive). *)
Theorem C141_history : forall (K : R), let sc : Scalar R := RInf K in forall cs (o : optim R) st o' st' r,
  rate_zero o -> Forall (fun c => (fst c <= 0)%R) cs -> opt_run optim_optimize cs o st = (o', st', r) -> forall k, st' k = st k.
Proof. exact history_still. Qed.
(** A learning rate of 0 passed to a single call is not used: every override that is not positive has the same effect as none. *)
Theorem C141_override : forall (K : R), let sc : Scalar R := RInf K in forall (o : optim R) st ks gs lro,
  (lro <= 0)%R -> optim_optimize o st ks gs lro = optim_optimize o st ks gs (s_z (-1)).
Proof. exact override_ignored. Qed.
(** So passing 0 does not freeze the weights: with any other own rate and any gradient but 0, a weight moves. *)
Theorem C141_override_zero_refuted : forall (K : R), let sc : Scalar R := RInf K in forall lr g : R, lr <> 0%R -> g <> 0%R ->
  exists o' st', optim_optimize (OSGD (sgd_new lr 0 0 0 false)%R) (fun _ => t_fill (shape_of [1]) 0%R) [0] [t_fill (shape_of [1]) g] 0%R = (o', st', Ok tt) /\ st' 0 <> t_fill (shape_of [1]) 0%R.
Proof. exact zero_override_moves. Qed.
(** In float32, SGD with rate 0, without momentum and weight decay: every finite weight keeps its value as long as all gradients are finite. *)
Theorem C141_float : forall lm, let sc : Scalar f32 := F32Scalar lm in forall D cs damp nest st,
  store_ok D st -> calls_ok D cs -> Forall (fun c => s_lt zero (fst c) = false /\ Forall (fun p => all_finite (snd p)) (snd c)) cs ->
  exists o' st', opt_run sgd_optimize cs (sgd_new zero zero damp zero nest) st = (o', st', Ok tt) /\
    forall k idx, in_range (D k) idx -> f32_finite (el (st k) idx) -> f32_finite (el (st' k) idx) /\ f32_value (el (st' k) idx) = f32_value (el (st k) idx).
Proof. exact sgd_zero32. Qed.
(** An infinite gradient, however, turns a weight of 1 into NaN although the rate is 0. *)
Theorem C141_float_refuted : forall lm, let sc : Scalar f32 := F32Scalar lm in
  exists o' st', sgd_optimize (sgd_new zero zero zero zero false) (fun _ => t_fill (shape_of [1]) one) [0] [t_fill (shape_of [1]) (s_inf : f32)] (s_z (-1)) = (o', st', Ok tt) /\ f32_nan (el (st' 0) [0]).
Proof. exact inf_zero. Qed.
Example C141_float_case : forall lm, let sc : Scalar f32 := F32Scalar lm in let ones := t_fill (shape_of [1]) (one : f32) in
  store_ok (fun _ => [1]) (fun _ => ones) /\ calls_ok (fun _ => [1]) [(s_z (-1), [(0, ones)])] /\ Forall (fun c => s_lt zero (fst c) = false /\ Forall (fun p => all_finite (snd p)) (snd c)) [(s_z (-1), [(0, ones)])].
Proof.
  intros lm sc ones. assert (HG : good ones) by (apply good_fill; [split; [discriminate|repeat constructor; lia]|vm_compute; discriminate]).
  split; [intros k; split; [exact HG|reflexivity]|]. split; [repeat constructor; apply HG|]. constructor; [|constructor]. split; [reflexivity|]. constructor; [|constructor]. constructor; [|constructor]. split; [reflexivity|exact I].
Qed.
Definition far_t : tensor R := tensor_of [1; 2] (fun _ => 7%R).
(** Five epochs with Adam, both penalties and decay: training runs to its end and the weights are the same. *)
Example C141_case : let sc : Scalar R := RInf 0 in exists n', net_train (G := unit) (HR := rngR) (mkNet [LFC sure_fc] (Some MSE) (Some (OAdam (adam_new 0 (1/2) (1/2) 1 1 1 1 1)%R)) tt) [sure_x] [far_t] 5 = (n', Ok tt) /\
  map layer_params (n_layers n') = [Some (fc_w sure_fc, fc_b sure_fc)].
Proof.
  intros sc. pose (o := OAdam (adam_new 0 (1/2) (1/2) 1 1 1 1 1)%R). pose (n := mkNet [LFC sure_fc] (Some MSE) (Some o) tt : net R unit).
  assert (H1 : Forall (fun x => good x /\ tdims x = [1; 1]) [sure_x]) by (constructor; [split; [apply good12; lia|reflexivity]|constructor]).
  assert (H2 : Forall (target_fits MSE [1; 2]) [far_t]) by (constructor; [split; [apply good12; lia|left; reflexivity]|constructor]).
  destruct (C78_training_succeeds (HR := rngR) [1; 1] [1; 2] MSE o n [sure_x] [far_t] 5 (sure_accepts _) eq_refl eq_refl (new_adam _ _ _ _ _ _ _ _) (counts_I 0)
    ltac:(vm_compute; split; [reflexivity|discriminate]) ltac:(vm_compute; discriminate) ltac:(lia) ltac:(vm_compute; discriminate) H1 H2) as (n' & E & _).
  exists n'. split; [exact E|]. exact (@C141_training 0%R unit rngR n n' o _ _ _ _ eq_refl eq_refl E).
Qed.
Print Assumptions C141_training.
Print Assumptions C141_history.
Print Assumptions C141_override.
Print Assumptions C141_override_zero_refuted.
Print Assumptions C141_float.
Print Assumptions C141_float_refuted.
