(** * C104, C105: random initialisation; parts of C44 and C53 on freshly made layers *)
From Coq Require Import Reals Lra.
From Verif Require Import Base Scalar ScalarR Types Spec SpecNN SpecR SpecOpt M_Shape M_Tensor M_Adv M_Act M_Loss M_Layers M_Reg M_Opt M_Net SpecNet SpecSep SpecInit
  L_Index L_Tensor L_OptR L_Net L_Init L_InitR P_Tensor P_Layers P_Net.
Local Open Scope Z_scope.

(** ** C104.  [drawn ds lo hi g]: the tensor whose elements in row-major order are the next draws of the engine, from a normal distribution
    with deviation sqrt (2 / number of elements), clamped to lo..hi.  [after_drawn ds g]: the engine after as many draws. *)
Theorem C104_random_tensor : forall {T} {S : Scalar T} {G} {HR : Rng T G} ds (lo hi : T) (g : G), pos_dims ds -> prod ds <= INT_MAX ->
  f_random ds lo hi g = Ok (drawn ds lo hi g, after_drawn ds g).
Proof. exact @random_drawn. Qed.
(** A layer's weights are the next draws, its biases zero; the next layer draws from where this one stopped. *)
Theorem C104_fully_connected : forall {T} {S : Scalar T} {G} {HR : Rng T G} k o (g : G), 0 < k -> 0 < o -> k * o <= INT_MAX ->
  fc_new k o g = Ok (mkFC (drawn [k; o] zero one g) (tensor_of [1; o] (fun _ => zero)) None None None, after_drawn [k; o] g).
Proof. exact @fc_new_drawn. Qed.
Theorem C104_convolution : forall {T} {S : Scalar T} {G} {HR : Rng T G} ic oc kh kw s p d (g : G), 0 < ic -> 0 < oc -> 0 < kh -> 0 < kw -> oc * (ic * (kh * kw)) <= INT_MAX ->
  conv_new ic oc kh kw s p d g = Ok (mkConv (drawn [oc; ic; kh; kw] zero one g) (tensor_of [oc; 1] (fun _ => zero)) None None None ic oc kh kw s p d, after_drawn [oc; ic; kh; kw] g).
Proof. exact @conv_new_drawn. Qed.
(** In a network: [cut n ls] is the network with the layers [ls] only, [z] what the layers before the dropout layer produce and [g] the engine
    they leave.  The mask of the dropout layer comes from the next draws, and the layers after it start from the engine it leaves. *)
Theorem C104_dropout_mask : forall {T} {S : Scalar T} {G} {HR : Rng T G} (n : net T G) pre l post x z, snd (net_predict (cut n pre) x) = Ok z -> good z -> dr_train l = true ->
  let g := n_rng (fst (net_predict (cut n pre) x)) in
  n_rng (fst (net_predict (cut n (pre ++ [LDrop l])) x)) = after_drawn (tdims z) g /\
  exists m, nth_error (n_layers (fst (net_predict (cut n (pre ++ LDrop l :: post)) x))) (length pre) = Some (LDrop (mkDrop (dr_rate l) (Some m) true)) /\
    m = tensor_of (tdims z) (fun idx => if s_lt (dr_rate l) (el (drawn (tdims z) zero one g) idx) then one else zero).
Proof. exact @engine_dropout. Qed.
(** Other layers, and dropout outside training, draw nothing. *)
Theorem C104_others_draw_nothing : forall {T} {S : Scalar T} {G} {HR : Rng T G} (n : net T G) pre l x z, snd (net_predict (cut n pre) x) = Ok z -> draws l = false ->
  n_rng (fst (net_predict (cut n (pre ++ [l])) x)) = n_rng (fst (net_predict (cut n pre) x)).
Proof. exact @engine_quiet. Qed.

(** An engine that counts: two layers, then two dropout layers; the fourteen draws 0..13 are used once each. *)
Definition tick_rng : Rng Z Z := {| rng_seed := fun s => s; rng_normal := fun _ g => (g, g + 1); rng_uniform := fun lo _ g => (lo, g + 1) |}.
Example C104_case : (' (l1, g1) <- fc_new (H := tick_rng) 2 3 0 ;; ' (l2, g2) <- fc_new (H := tick_rng) 3 2 g1 ;; Ok (g1, g2)) = Ok (6, 12) /\
  f_random (H := tick_rng) [2; 2] (-100) 100 12 = Ok (mkTensor (shape_of [2; 2]) [12; 13; 14; 15], 16) /\
  (let n := mkNet [LDrop (dropout_new 0); LDrop (dropout_new 0)] None None (-1) in
   n_rng (fst (net_predict (HR := tick_rng) n (ramp [3]))) = 5 /\
   map (fun l => match l with LDrop l => dr_mask l | _ => None end) (n_layers (fst (net_predict (HR := tick_rng) n (ramp [3])))) =
     [Some (mkTensor (shape_of [3]) [0; 0; 1]); Some (mkTensor (shape_of [3]) [1; 1; 1])]).
Proof. vm_compute. auto. Qed.
Print Assumptions C104_random_tensor.
Print Assumptions C104_fully_connected.
Print Assumptions C104_convolution.
Print Assumptions C104_dropout_mask.
Print Assumptions C104_others_draw_nothing.

(** ** C105.  He initialisation: each weight is a draw from a normal distribution with deviation sqrt (2 / inputs).  What is true: the deviation is
    sqrt (2 / weights), negative draws become 0 and draws above 1 become 1. *)
Theorem C105_partial : forall {G} {HR : Rng R G} k o (g : G) l g' i j, 0 < k -> 0 < o -> k * o <= INT_MAX -> fc_new k o g = Ok (l, g') -> 0 <= i < k -> 0 <= j < o ->
  let v := draw (sqrt (2 / IZR (k * o))) (Z.to_nat (i * o + j)) g in
  (0 <= el (fc_w l) [i; j] <= 1)%R /\ ((v <= 0)%R -> el (fc_w l) [i; j] = 0%R) /\ ((0 <= v <= 1)%R -> el (fc_w l) [i; j] = v) /\ ((1 <= v)%R -> el (fc_w l) [i; j] = 1%R) /\ el (fc_b l) [0; j] = 0%R.
Proof. exact @fc_weights_R. Qed.
Theorem C105_convolution : forall {G} {HR : Rng R G} ic oc kh kw s p d (g : G) l g' idx, 0 < ic -> 0 < oc -> 0 < kh -> 0 < kw -> oc * (ic * (kh * kw)) <= INT_MAX ->
  conv_new ic oc kh kw s p d g = Ok (l, g') -> in_range [oc; ic; kh; kw] idx ->
  let v := draw (sqrt (2 / IZR (oc * (ic * (kh * kw))))) (Z.to_nat (ravel [oc; ic; kh; kw] idx)) g in
  (0 <= el (cv_w l) idx <= 1)%R /\ ((v <= 0)%R -> el (cv_w l) idx = 0%R) /\ ((0 <= v <= 1)%R -> el (cv_w l) idx = v) /\ ((1 <= v)%R -> el (cv_w l) idx = 1%R).
Proof. exact @conv_weights_R. Qed.
(** So ReLU layers between new fully connected layers do nothing to inputs that are not negative, such as images: the network is the one without them. *)
Theorem C105_relu_idle : forall {G} {HR : Rng R G} n k (ls : list (layer R)) x (g : G), fresh_relu (G := G) n k ls -> good x -> tdims x = [n; k] -> nonneg x ->
  exists y, snd (forward_all ls x g) = Ok y /\ snd (forward_all (filter (fun l => negb (is_relu l)) ls) x g) = Ok y /\ nonneg y.
Proof. exact @relu_stack. Qed.
(** An engine that draws minus the deviation: the weight is 0. *)
Lemma he_sign : exists (HR : Rng R unit) k o l g', 0 < k /\ 0 < o /\ fc_new k o tt = Ok (l, g') /\ (draw (sqrt (2 / IZR k)) 0 tt < 0)%R /\ el (fc_w l) [0; 0] = 0%R.
Proof.
  exists minus_rng, 1, 1. rewrite (fc_new_drawn (HR := minus_rng) 1 1 tt) by (vm_compute; congruence). do 2 eexists. split; [lia|]. split; [lia|]. split; [reflexivity|].
  assert (P : (0 < sqrt (2 / 1))%R) by (apply sqrt_lt_R0; lra). unfold draw. cbn [rng_normal minus_rng fst engine_after]. split; [lra|].
  apply (fc_weights_R (HR := minus_rng) 1 1 tt _ _ 0 0 ltac:(lia) ltac:(lia) ltac:(vm_compute; discriminate) (fc_new_drawn (HR := minus_rng) 1 1 tt ltac:(lia) ltac:(lia) ltac:(vm_compute; discriminate))); try lia.
  unfold draw. cbn [rng_normal minus_rng fst]. change (1 * 1) with 1. lra.
Qed.
Theorem C105_refuted : exists (HR : Rng R unit) k o l g', 0 < k /\ 0 < o /\ fc_new k o tt = Ok (l, g') /\ (draw (sqrt (2 / IZR k)) 0 tt < 0)%R /\ el (fc_w l) [0; 0] = 0%R.
Proof. exact he_sign. Qed.
(** An engine that draws the deviation: 4 inputs and 2 outputs give sqrt (2 / 8), not sqrt (2 / 4). *)
Lemma he_fan : exists (HR : Rng R unit) l g', fc_new 4 2 tt = Ok (l, g') /\ (draw (sqrt (2 / 4)) 0 tt = sqrt (2 / 4))%R /\ el (fc_w l) [0; 0] = sqrt (2 / 8).
Proof.
  exists plus_rng. rewrite (fc_new_drawn (HR := plus_rng) 4 2 tt) by (vm_compute; congruence). do 2 eexists. split; [reflexivity|]. split; [reflexivity|].
  change (sqrt (2 / 8)) with (draw (HR := plus_rng) (sqrt (2 / IZR (4 * 2))) (Z.to_nat (0 * 2 + 0)) tt).
  apply (fc_weights_R (HR := plus_rng) 4 2 tt _ _ 0 0 ltac:(lia) ltac:(lia) ltac:(vm_compute; discriminate) (fc_new_drawn (HR := plus_rng) 4 2 tt ltac:(lia) ltac:(lia) ltac:(vm_compute; discriminate))); try lia.
  change (0 <= sqrt (2 / 8) <= 1)%R. split; [apply sqrt_pos|]. apply Rle_trans with (sqrt 1); [apply sqrt_le_1_alt; lra|rewrite sqrt_1; lra].
Qed.
Theorem C105_deviation_refuted : exists (HR : Rng R unit) l g', fc_new 4 2 tt = Ok (l, g') /\ (draw (sqrt (2 / 4)) 0 tt = sqrt (2 / 4))%R /\ el (fc_w l) [0; 0] = sqrt (2 / 8).
Proof. exact he_fan. Qed.
Example C105_case : exists ls : list (layer R), fresh_relu (HR := plus_rng) (G := unit) 5 4 ls /\ map is_relu ls = [false; true; false; true].
Proof.
  exists [LFC (mkFC (drawn (HR := plus_rng) [4; 2] zero one tt) (tensor_of [1; 2] (fun _ => zero)) None None None); LAct (act_new ReLU);
          LFC (mkFC (drawn (HR := plus_rng) [2; 3] zero one tt) (tensor_of [1; 3] (fun _ => zero)) None None None); LAct (act_new ReLU)]. split; [|reflexivity].
  eapply (fresh_fc (HR := plus_rng) 5 4 2 tt); [lia|lia|vm_compute; discriminate|vm_compute; discriminate|apply (fc_new_drawn (HR := plus_rng)); (lia || (vm_compute; discriminate))|]. apply fresh_act.
  eapply (fresh_fc (HR := plus_rng) 5 2 3 tt); [lia|lia|vm_compute; discriminate|vm_compute; discriminate|apply (fc_new_drawn (HR := plus_rng)); (lia || (vm_compute; discriminate))|]. apply fresh_act. apply fresh_nil.
Qed.
Print Assumptions C105_partial.
Print Assumptions C105_convolution.
Print Assumptions C105_relu_idle.
Print Assumptions C105_refuted.
Print Assumptions C105_deviation_refuted.

(** ** C44.  A constructed layer, after any forward passes but no backward pass: update throws if it has parameters, and otherwise does nothing. *)
Theorem C44_update_before_backward : forall {T} {S : Scalar T} {G} {HR : Rng T G} i (l : layer T) o xs, constructed (G := G) l ->
  layer_update i (forwards xs l) o = (forwards xs l, o, if parametric (forwards xs l) then Throw RuntimeError else Ok tt).
Proof. exact @update_first. Qed.
Example C44_update_case : exists l : fc Z, constructed (G := Z) (HR := tick_rng) (LFC l) /\ parametric (forwards (HR := tick_rng) [(ramp [3], 0)] (LFC l)) = true.
Proof. eexists. split; [apply (made_fc (HR := tick_rng) 3 2 0 6); vm_compute; reflexivity|reflexivity]. Qed.
Print Assumptions C44_update_before_backward.
