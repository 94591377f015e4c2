(** * Networks in which ReLU does nothing (C143) *)
From Coq Require Import Reals Lra SpecFloat.
From Verif Require Import Base Scalar ScalarR Types Spec SpecNN SpecLayers SpecR M_Shape M_Tensor M_Adv M_Act M_Loss M_Layers M_Reg M_Opt M_Net SpecNet SpecFuse SpecInit SpecLevel SpecIdle SpecF32 SpecNear SpecMono
  L_Index L_Tensor L_Nest L_Matmul L_Init L_InitR L_FloatLib L_Idle L_IdleF P_Tensor P_Layers P_Net P_Init P_Mono.
Local Open Scope Z_scope.

(** ** C143
    Exact arithmetic with a largest number [K] (the start value of max pooling is -K).  [n'] is the network [n] without its ReLU and leaky ReLU layers.  If no weight,
    bias and input is negative, both predict the same. *)
Theorem C143_idle : forall (K : R) G (HR : Rng R G), let sc : Scalar R := RInf K in forall (n n' : net R G) ds ds' x,
  (0 < K)%R -> stack predicts ds (n_layers n) ds' -> Forall unsigned (n_layers n) -> n_layers n' = unrectified (n_layers n) -> n_rng n' = n_rng n -> good x -> tdims x = ds -> no_minus x ->
  exists y, snd (net_predict n x) = Ok y /\ snd (net_predict n' x) = Ok y /\ tdims y = ds' /\ no_minus y.
Proof. exact @idle_predict. Qed.
(** All newly constructed networks are of this kind, whatever the random numbers are. *)
Theorem C143_new_network : forall (K : R) G (HR : Rng R G), let sc : Scalar R := RInf K in forall (n n' : net R G) ds ds' x,
  (0 < K)%R -> stack predicts ds (n_layers n) ds' -> Forall (new_layer (G := G) true) (n_layers n) -> n_layers n' = unrectified (n_layers n) -> n_rng n' = n_rng n ->
  good x -> tdims x = ds -> no_minus x -> exists y, snd (net_predict n x) = Ok y /\ snd (net_predict n' x) = Ok y /\ tdims y = ds' /\ no_minus y.
Proof. exact @idle_new. Qed.
(** Without activations and biases a network is linear, for all inputs and factors. *)
Theorem C143_linear : forall (K : R) G (HR : Rng R G), let sc : Scalar R := RInf K in forall (n : net R G) a b ds ds' x x' z,
  stack predicts ds (n_layers n) ds' -> Forall linear (n_layers n) -> good x -> good x' -> tdims x = ds -> mixture a b x x' z ->
  exists y y' v, snd (net_predict n x) = Ok y /\ snd (net_predict n x') = Ok y' /\ snd (net_predict n z) = Ok v /\ tdims y = ds' /\ mixture a b y y' v.
Proof. exact @linear_predict. Qed.
(** So a new network of dense, convolution, flatten, dropout, ReLU and leaky ReLU layers is linear on inputs that are not negative: the prediction for a sum is the sum of
    the predictions. *)
Theorem C143_new_linear : forall (K : R) G (HR : Rng R G), let sc : Scalar R := RInf K in forall (n : net R G) a b ds ds' x x' z,
  (0 < K)%R -> (0 <= a)%R -> (0 <= b)%R -> stack predicts ds (n_layers n) ds' -> Forall (new_layer (G := G) false) (n_layers n) -> good x -> good x' -> tdims x = ds -> no_minus x -> no_minus x' -> mixture a b x x' z ->
  exists y y' v, snd (net_predict n x) = Ok y /\ snd (net_predict n x') = Ok y' /\ snd (net_predict n z) = Ok v /\ tdims y = ds' /\ mixture a b y y' v.
Proof. exact @new_is_linear. Qed.
(** The condition on the input is needed: an element below 0 is changed. *)
Theorem C143_negative_input : forall (K : R) G (HR : Rng R G), let sc : Scalar R := RInf K in forall (l : actl R) x idx (g : G),
  (al_act l = ReLU \/ exists al, al_act l = LeakyReLU al /\ al <> 1%R) -> good x -> in_range (tdims x) idx -> (el x idx < 0)%R ->
  exists y, snd (layer_forward (LAct l) x g) = Ok y /\ el y idx <> el x idx.
Proof. exact @rectifier_shows. Qed.
(** The same in float32 with all roundings: the numbers predicted with and without the ReLU and leaky ReLU layers are equal (a 0 may differ in sign).  [drifts] (C122)
    keeps all numbers in range; other activations are Sigmoid, if the library's expf does not fall anywhere. *)
Theorem C143_float : forall lm {G} {HR : Rng f32 G}, let sc : Scalar f32 := F32Scalar lm in forall (n n' : net f32 G) ds M ds' M' E' x,
  drifts lm ds M 0 (n_layers n) ds' M' E' -> Forall (unsigned32 lm) (n_layers n) -> n_layers n' = unrectified32 (n_layers n) -> n_rng n' = n_rng n ->
  good x -> tdims x = ds -> all_finite x -> (forall idx, in_range ds idx -> (0 <= f32_value (el x idx) <= M)%R) ->
  exists y y', snd (net_predict n x) = Ok y /\ snd (net_predict n' x) = Ok y' /\ tdims y = ds' /\ all_finite y /\ all_finite y' /\ same32 lm y y' /\ no_minus32 lm y.
Proof. exact @predict_idle. Qed.
Example C143_float_case : (exists M' E', drifts cr_libm [3; 2] 1 0 idle_layers [3; 2] M' E') /\ Forall (unsigned32 cr_libm) idle_layers /\ length (unrectified32 idle_layers) = 2%nat.
Proof. split; [exact idle_drifts|]. split; [exact idle_unsigned|reflexivity]. Qed.
Local Ltac goodc := apply good_tensor_of; [split; [discriminate|repeat constructor; lia]|cbn [prod]; unfold INT_MAX; lia].
Definition idleN (K : R) : list (layer R) :=
  let sc : Scalar R := RInf K in
  [LConv (mkConv (drawn (HR := plus_rng) [2; 1; 3; 3] zero one tt) (tensor_of [2; 1] (fun _ => zero)) None None None 1 2 3 3 1 0 1); LAct (act_new ReLU); LFlat flatten_new; LDrop (dropout_new (1 / 2)%R);
   LFC (mkFC (drawn (HR := plus_rng) [8; 3] zero one tt) (tensor_of [1; 3] (fun _ => zero)) None None None); LAct (act_new (LeakyReLU (1 / 100)%R))].
Example C143_case : forall K : R, let sc : Scalar R := RInf K in
  stack predicts [5; 1; 4; 4] (idleN K) [5; 3] /\ Forall (new_layer (HR := plus_rng) (G := unit) false) (idleN K) /\ Forall unsigned (idleN K) /\ length (unrectified (idleN K)) = 4%nat /\
  Forall linear (unrectified (idleN K)) /\
  no_minus (tensor_of [5; 1; 4; 4] (fun idx => IZR (nth 2 idx 0))) /\
  mixture 2 3 (tensor_of [5; 1; 4; 4] (fun idx => IZR (nth 2 idx 0))) (tensor_of [5; 1; 4; 4] (fun idx => IZR (nth 3 idx 0))) (tensor_of [5; 1; 4; 4] (fun idx => IZR (2 * nth 2 idx 0 + 3 * nth 3 idx 0))).
Proof.
  intros K sc. assert (HN : Forall (new_layer (HR := plus_rng) (G := unit) false) (idleN K)).
  { repeat apply Forall_cons; try apply Forall_nil.
    - eapply (nw_conv (HR := plus_rng) false 1 2 3 3 1 0 1 tt); [lia|lia|lia|lia|vm_compute; discriminate|apply (conv_new_drawn (HR := plus_rng)); (lia || (vm_compute; discriminate))].
    - apply nw_relu.
    - apply nw_flat.
    - apply nw_drop; lra.
    - eapply (nw_dense (HR := plus_rng) false 8 3 tt); [lia|lia|vm_compute; discriminate|apply (fc_new_drawn (HR := plus_rng)); (lia || (vm_compute; discriminate))].
    - apply nw_leaky. }
  split; [|split; [exact HN|split; [eapply Forall_impl; [|exact HN]; intros l; apply (new_unsigned K (HR := plus_rng))|split; [reflexivity|split; [|split]]]]].
  - apply (acc_cons _ _ _ [5; 2; 2; 2]).
    { apply pr_layer. apply (acc_conv 5 4 4 (mkConv (drawn (HR := plus_rng) [2; 1; 3; 3] zero one tt) (tensor_of [2; 1] (fun _ => zero)) None None None 1 2 3 3 1 0 1)); cbn [cv_w cv_b cv_ic cv_oc cv_kh cv_kw]; try (goodc || reflexivity || lia); unfold INT_MAX; lia. }
    apply (acc_cons _ _ _ [5; 2; 2; 2]); [apply pr_layer; apply acc_act; intros; discriminate|].
    apply (acc_cons _ _ _ [5; 8]); [apply pr_layer; apply (acc_flat 5 2 [2; 2]); discriminate|].
    apply (acc_cons _ _ _ [5; 8]); [apply pr_layer; apply acc_drop; reflexivity|].
    apply (acc_cons _ _ _ [5; 3]); [apply pr_layer; apply acc_fc; [goodc|reflexivity|goodc|reflexivity|unfold INT_MAX; lia]|].
    apply (acc_cons _ _ _ [5; 3]); [apply pr_layer; apply acc_act; intros; discriminate|apply acc_nil].
  - apply Forall_forall. intros l HI. apply filter_In in HI. destruct HI as (HI & HR1). rewrite Forall_forall in HN. apply (new_linear K (HR := plus_rng)); [apply HN; auto|]. destruct (rectifier l); [discriminate|auto].
  - intros idx HI. change (in_range [5; 1; 4; 4] idx) in HI. rewrite el_tensor_of by auto. apply IZR_le. apply in_range_4 in HI. destruct HI as (i & j & y & z & -> & _ & _ & Hy & _). cbn [nth]. lia.
  - split; [goodc|]. split; [reflexivity|]. split; [reflexivity|]. intros idx HI. change (in_range [5; 1; 4; 4] idx) in HI. rewrite !el_tensor_of by auto. rewrite plus_IZR, !mult_IZR. reflexivity.
Qed.
Print Assumptions C143_idle.
Print Assumptions C143_new_network.
Print Assumptions C143_linear.
Print Assumptions C143_new_linear.
Print Assumptions C143_negative_input.
Print Assumptions C143_float.
