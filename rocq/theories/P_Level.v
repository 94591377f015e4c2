(** * Networks without offsets (C142) *)
From Coq Require Import Reals Lra.
From Verif Require Import Base Scalar ScalarR Types Spec SpecNN SpecLayers SpecR M_Shape M_Tensor M_Adv M_Act M_Loss M_Layers M_Reg M_Opt M_Net SpecNet SpecFuse SpecInit SpecLevel
  L_Index L_Tensor L_Nest L_Matmul L_Init L_InitR L_Level P_Tensor P_Layers P_Net P_Init P_Mono.
Local Open Scope Z_scope.

(** ** C142
    Exact arithmetic with a largest number [K] (the start value of max pooling is -K).  [level false ls]: all biases are 0, activations are ReLU and leaky ReLU,
    pooling only sees values behind a ReLU.  Then [c] times the input gives [c] times the prediction. *)
Theorem C142_prediction : forall (K : R) G (HR : Rng R G), let sc : Scalar R := RInf K in forall (n : net R G) c ds ds' x x',
  (0 < K)%R -> (0 <= c)%R -> stack predicts ds (n_layers n) ds' -> level false (n_layers n) -> good x -> tdims x = ds -> scaled c x x' ->
  exists y y', snd (net_predict n x) = Ok y /\ snd (net_predict n x') = Ok y' /\ tdims y = ds' /\ scaled c y y'.
Proof. exact @level_predict. Qed.
(** All newly constructed networks of such layers are of this kind, whatever the random numbers are. *)
Theorem C142_new_network : forall (K : R) G (HR : Rng R G), let sc : Scalar R := RInf K in forall (n : net R G) c ds ds' x x',
  (0 < K)%R -> (0 <= c)%R -> stack predicts ds (n_layers n) ds' -> new_level (G := G) false (n_layers n) -> good x -> tdims x = ds -> scaled c x x' ->
  exists y y', snd (net_predict n x) = Ok y /\ snd (net_predict n x') = Ok y' /\ tdims y = ds' /\ scaled c y y'.
Proof. exact @level_new. Qed.
(** With Softmax behind them the probabilities change, but not the ranking of the classes. *)
Theorem C142_ranking : forall (K : R) G (HR : Rng R G), let sc : Scalar R := RInf K in forall (n : net R G) ls l c ds b k x x',
  (0 < K)%R -> (0 < c)%R -> n_layers n = ls ++ [LAct l] -> al_act l = Softmax -> stack predicts ds ls [b; k] -> level false ls -> good x -> tdims x = ds -> scaled c x x' ->
  exists y y', snd (net_predict n x) = Ok y /\ snd (net_predict n x') = Ok y' /\
    forall i j j', 0 <= i < b -> 0 <= j < k -> 0 <= j' < k -> ((el y [i; j] <= el y [i; j'])%R <-> (el y' [i; j] <= el y' [i; j'])%R).
Proof. exact @level_ranking. Qed.
(** The condition is needed: behind a bias other than 0 no factor but 1 carries over. *)
Theorem C142_bias : forall (K : R) G (HR : Rng R G), let sc : Scalar R := RInf K in forall (l : fc R) n k o c x x' i j (g : G),
  good (fc_w l) -> tdims (fc_w l) = [k; o] -> good (fc_b l) -> tdims (fc_b l) = [1; o] -> n * o <= INT_MAX -> good x -> tdims x = [n; k] -> scaled c x x' -> c <> 1%R ->
  0 <= i < n -> 0 <= j < o -> el (fc_b l) [0; j] <> 0%R ->
  exists y y', snd (layer_forward (LFC l) x g) = Ok y /\ snd (layer_forward (LFC l) x' g) = Ok y' /\ el y' [i; j] <> (c * el y [i; j])%R.
Proof. exact @bias_shows. Qed.
Local Ltac goodc := apply good_tensor_of; [split; [discriminate|repeat constructor; lia]|cbn [prod]; unfold INT_MAX; lia].
Definition levelN (K : R) : list (layer R) :=
  let sc : Scalar R := RInf K in
  [LConv (mkConv (drawn (HR := plus_rng) [2; 1; 3; 3] zero one tt) (tensor_of [2; 1] (fun _ => zero)) None None None 1 2 3 3 1 0 1); LAct (act_new ReLU); LPool (pool_new 2 2 0); LFlat flatten_new; LDrop (dropout_new (1 / 2)%R);
   LFC (mkFC (drawn (HR := plus_rng) [8; 3] zero one tt) (tensor_of [1; 3] (fun _ => zero)) None None None)].
Example C142_case : forall K : R, let sc : Scalar R := RInf K in
  stack predicts [5; 1; 6; 6] (levelN K) [5; 3] /\ new_level (HR := plus_rng) (G := unit) false (levelN K) /\ level false (levelN K) /\
  scaled 2 (tensor_of [5; 1; 6; 6] (fun idx => IZR (nth 2 idx 0))) (tensor_of [5; 1; 6; 6] (fun idx => IZR (2 * nth 2 idx 0))).
Proof.
  intros K sc. assert (HN : new_level (HR := plus_rng) (G := unit) false (levelN K)).
  { eapply (nl_conv (HR := plus_rng) false 1 2 3 3 1 0 1 tt); [lia|lia|lia|lia|vm_compute; discriminate|apply (conv_new_drawn (HR := plus_rng)); (lia || (vm_compute; discriminate))|].
    apply nl_relu. apply nl_pool. apply nl_flat. apply nl_drop; [lra|]. eapply (nl_dense (HR := plus_rng) true 8 3 tt); [lia|lia|vm_compute; discriminate|apply (fc_new_drawn (HR := plus_rng)); (lia || (vm_compute; discriminate))|apply nl_nil]. }
  split; [|split; [exact HN|split; [exact (new_is_level K (HR := plus_rng) _ _ HN)|]]].
  - apply (acc_cons _ _ _ [5; 2; 4; 4]).
    { apply pr_layer. apply (acc_conv 5 6 6 (mkConv (drawn (HR := plus_rng) [2; 1; 3; 3] zero one tt) (tensor_of [2; 1] (fun _ => zero)) None None None 1 2 3 3 1 0 1)); cbn [cv_w cv_b cv_ic cv_oc cv_kh cv_kw]; try (goodc || reflexivity || lia); unfold INT_MAX; lia. }
    apply (acc_cons _ _ _ [5; 2; 4; 4]); [apply pr_layer; apply acc_act; intros; discriminate|].
    apply (acc_cons _ _ _ [5; 2; 2; 2]); [apply pr_layer; apply (acc_pool 5 2 4 4 (pool_new 2 2 0)); cbn; lia|].
    apply (acc_cons _ _ _ [5; 8]); [apply pr_layer; apply (acc_flat 5 2 [2; 2]); discriminate|].
    apply (acc_cons _ _ _ [5; 8]); [apply pr_layer; apply acc_drop; reflexivity|].
    apply (acc_cons _ _ _ [5; 3]); [apply pr_layer; apply acc_fc; [goodc|reflexivity|goodc|reflexivity|unfold INT_MAX; lia]|apply acc_nil].
  - split; [goodc|]. split; [reflexivity|]. intros idx HI. change (in_range [5; 1; 6; 6] idx) in HI. rewrite !el_tensor_of by auto. rewrite mult_IZR. reflexivity.
Qed.
Print Assumptions C142_prediction.
Print Assumptions C142_new_network.
Print Assumptions C142_ranking.
Print Assumptions C142_bias.
