(** * Networks that only add (C140) *)
From Coq Require Import Reals Lra SpecFloat.
From Verif Require Import Base Scalar ScalarR Types Spec SpecNN SpecLayers SpecR M_Shape M_Tensor M_Adv M_Act M_Loss M_Layers M_Reg M_Opt M_Net SpecNet SpecFuse SpecInit SpecF32 SpecNear SpecMono
  L_Index L_Tensor L_Nest L_Matmul L_Init L_InitR L_FloatLib L_Mono L_MonoF P_Tensor P_Layers P_Net P_Init.
Local Open Scope Z_scope.

(** ** C140
    Exact arithmetic with a largest number [K] (the start value of max pooling is -K).  If no weight of a fully connected layer or convolution and no
    scale of batch normalisation is negative and the activations are ReLU, leaky ReLU, Sigmoid or Tanh, raising elements of the input lowers no element of the prediction. *)
Theorem C140_prediction : forall (K : R) G (HR : Rng R G), let sc : Scalar R := RInf K in forall (n : net R G) ds ds' x x',
  stack predicts ds (n_layers n) ds' -> Forall upward (n_layers n) -> good x -> tdims x = ds -> raised x x' ->
  exists y y', snd (net_predict n x) = Ok y /\ snd (net_predict n x') = Ok y' /\ tdims y = ds' /\ raised y y'.
Proof. exact @mono_predict. Qed.
(** Constructed layers, whatever the random numbers are, are of this kind: a new network can only answer more of something with more. *)
Theorem C140_new_network : forall (K : R) G (HR : Rng R G), let sc : Scalar R := RInf K in forall (n : net R G) ds ds' x x',
  stack predicts ds (n_layers n) ds' -> Forall (fresh (G := G)) (n_layers n) -> good x -> tdims x = ds -> raised x x' ->
  exists y y', snd (net_predict n x) = Ok y /\ snd (net_predict n x') = Ok y' /\ tdims y = ds' /\ raised y y'.
Proof. exact @mono_new. Qed.
(** The same bit for bit in float32, with roundings: rounding never turns a raised input into a lowered output.  [drifts] (C122) keeps all numbers in range;
    activations are ReLU, leaky ReLU and Sigmoid, the latter if the library's expf does not fall anywhere. *)
Theorem C140_float : forall lm {G} {HR : Rng f32 G}, let sc : Scalar f32 := F32Scalar lm in forall (n : net f32 G) ds M ds' M' E' x x', drifts lm ds M 0 (n_layers n) ds' M' E' -> Forall (upward32 lm) (n_layers n) ->
  good x -> tdims x = ds -> all_finite x -> (forall idx, in_range ds idx -> (Rabs (f32_value (el x idx)) <= M)%R) ->
  good x' -> tdims x' = ds -> all_finite x' -> (forall idx, in_range ds idx -> (Rabs (f32_value (el x' idx)) <= M)%R) -> raised32 lm x x' ->
  exists y y', snd (net_predict n x) = Ok y /\ snd (net_predict n x') = Ok y' /\ tdims y = ds' /\ all_finite y /\ all_finite y' /\ raised32 lm y y'.
Proof. exact @predict_rise. Qed.
Example C140_float_case : (exists M' E', drifts cr_libm [3; 2] 1 0 up_layers [3; 2] M' E') /\ Forall (upward32 cr_libm) up_layers.
Proof. split; [exact up_drifts|exact up_upward]. Qed.
(** The conditions are needed.  Behind a negative weight, raising one input lowers the output. *)
Theorem C140_negative_weight : forall (K : R) G (HR : Rng R G), let sc : Scalar R := RInf K in forall (l : fc R) n k o x x' i p j (g : G),
  good (fc_w l) -> tdims (fc_w l) = [k; o] -> good (fc_b l) -> tdims (fc_b l) = [1; o] -> n * o <= INT_MAX -> good x -> tdims x = [n; k] -> good x' -> tdims x' = [n; k] ->
  0 <= i < n -> 0 <= p < k -> 0 <= j < o -> (el (fc_w l) [p; j] < 0)%R -> (el x [i; p] < el x' [i; p])%R -> (forall q, 0 <= q < k -> q <> p -> el x' [i; q] = el x [i; q]) ->
  exists y y', snd (layer_forward (LFC l) x g) = Ok y /\ snd (layer_forward (LFC l) x' g) = Ok y' /\ (el y' [i; j] < el y [i; j])%R.
Proof. exact @dense_falls. Qed.
(** Softmax: raising one input raises its own output and lowers all others of the row. *)
Theorem C140_softmax : forall (K : R) G (HR : Rng R G), let sc : Scalar R := RInf K in forall (l : actl R) n c x x' i j k (g : G),
  al_act l = Softmax -> good x -> tdims x = [n; c] -> good x' -> tdims x' = [n; c] -> 0 <= i < n -> 0 <= j < c -> 0 <= k < c -> k <> j ->
  (el x [i; j] < el x' [i; j])%R -> (forall q, 0 <= q < c -> q <> j -> el x' [i; q] = el x [i; q]) ->
  exists y y', snd (layer_forward (LAct l) x g) = Ok y /\ snd (layer_forward (LAct l) x' g) = Ok y' /\ (el y' [i; k] < el y [i; k])%R /\ (el y [i; j] < el y' [i; j])%R.
Proof. exact @softmax_falls. Qed.
(** Swish and Mish fall between -4 and -1. *)
Theorem C140_swish_mish : forall (K : R) G (HR : Rng R G), let sc : Scalar R := RInf K in forall (l : actl R) x x' idx (g : G),
  al_act l = Swish \/ al_act l = Mish -> good x -> good x' -> tdims x' = tdims x -> in_range (tdims x) idx -> el x idx = (-4)%R -> el x' idx = (-1)%R ->
  exists y y', snd (layer_forward (LAct l) x g) = Ok y /\ snd (layer_forward (LAct l) x' g) = Ok y' /\ (el y' idx < el y idx)%R.
Proof. exact @dips_fall. Qed.
Print Assumptions C140_prediction.
Print Assumptions C140_new_network.
Print Assumptions C140_float.
Print Assumptions C140_negative_weight.
Print Assumptions C140_softmax.
Print Assumptions C140_swish_mish.

(** A new image network with an engine that draws the deviation, and the steps its images take. *)
Local Ltac goodc := apply good_tensor_of; [split; [discriminate|repeat constructor; lia]|cbn [prod]; unfold INT_MAX; lia].
Definition freshN (K : R) : list (layer R) :=
  let sc : Scalar R := RInf K in
  [LConv (mkConv (drawn (HR := plus_rng) [2; 1; 3; 3] zero one tt) (tensor_of [2; 1] (fun _ => zero)) None None None 1 2 3 3 1 0 1); LAct (act_new ReLU); LPool (pool_new 2 2 0); LFlat flatten_new; LDrop (dropout_new (1 / 2)%R);
   LFC (mkFC (drawn (HR := plus_rng) [8; 3] zero one tt) (tensor_of [1; 3] (fun _ => zero)) None None None); LAct (act_new Sigmoid)].
Example C140_case : forall K : R, let sc : Scalar R := RInf K in
  stack predicts [5; 1; 6; 6] (freshN K) [5; 3] /\ Forall (fresh (HR := plus_rng) (G := unit)) (freshN K) /\
  raised (tensor_of [5; 1; 6; 6] (fun idx => IZR (nth 2 idx 0))) (tensor_of [5; 1; 6; 6] (fun idx => IZR (2 * nth 2 idx 0))).
Proof.
  intros K sc. split; [|split].
  - apply (acc_cons _ _ _ [5; 2; 4; 4]).
    { apply pr_layer. apply (acc_conv 5 6 6 (mkConv (drawn (HR := plus_rng) [2; 1; 3; 3] zero one tt) (tensor_of [2; 1] (fun _ => zero)) None None None 1 2 3 3 1 0 1)); cbn [cv_w cv_b cv_ic cv_oc cv_kh cv_kw]; try (goodc || reflexivity || lia); unfold INT_MAX; lia. }
    apply (acc_cons _ _ _ [5; 2; 4; 4]); [apply pr_layer; apply acc_act; intros; discriminate|].
    apply (acc_cons _ _ _ [5; 2; 2; 2]); [apply pr_layer; apply (acc_pool 5 2 4 4 (pool_new 2 2 0)); cbn; lia|].
    apply (acc_cons _ _ _ [5; 8]); [apply pr_layer; apply (acc_flat 5 2 [2; 2]); discriminate|].
    apply (acc_cons _ _ _ [5; 8]); [apply pr_layer; apply acc_drop; reflexivity|].
    apply (acc_cons _ _ _ [5; 3]); [apply pr_layer; apply acc_fc; [goodc|reflexivity|goodc|reflexivity|unfold INT_MAX; lia]|].
    apply (acc_cons _ _ _ [5; 3]); [apply pr_layer; apply acc_act; intros; discriminate|apply acc_nil].
  - constructor; [eapply (fr_conv (HR := plus_rng) 1 2 3 3 1 0 1 tt); [lia|lia|lia|lia|vm_compute; discriminate|apply (conv_new_drawn (HR := plus_rng)); (lia || (vm_compute; discriminate))]|].
    constructor; [apply fr_act; auto|]. constructor; [apply fr_pool|]. constructor; [apply fr_flat|]. constructor; [apply fr_drop; lra|].
    constructor; [eapply (fr_dense (HR := plus_rng) 8 3 tt); [lia|lia|vm_compute; discriminate|apply (fc_new_drawn (HR := plus_rng)); (lia || (vm_compute; discriminate))]|]. constructor; [apply fr_act; auto|constructor].
  - split; [goodc|]. split; [reflexivity|]. intros idx HI. change (in_range [5; 1; 6; 6] idx) in HI. rewrite !el_tensor_of by exact HI. apply IZR_le. apply in_range_4 in HI. destruct HI as (a & b & c & d & -> & _ & _ & Hc & _). cbn [nth]. lia.
Qed.
