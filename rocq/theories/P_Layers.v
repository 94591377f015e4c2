(** * Properties C40, C41, C43, C45, C46 and C72: fully connected, flatten and convolution layers *)
From Coq Require Import Reals Lra.
From Coquelicot Require Import Coquelicot.
From Verif Require Import Base Scalar ScalarR Types Spec M_Shape M_Tensor M_Adv M_Act M_Layers SpecR SpecNN SpecLayers
  L_Index L_Shape L_Tensor L_Glue L_Nest L_Matmul L_RSum L_AdvR L_Act L_ActR L_Layers L_LayersR L_Conv L_ConvR L_Rows.
Local Open Scope Z_scope.

Definition ramp (ds : list Z) : tensor Z := tensor_of ds (fun idx => ravel ds idx).
Lemma ramp_good : forall ds, pos_dims ds -> prod ds <= INT_MAX -> good (ramp ds).
Proof. intros. apply good_tensor_of; auto. Qed.
Ltac ramps := apply ramp_good; [repeat constructor; try discriminate|vm_compute; discriminate].

Lemma ramp_23 : good (ramp [2; 3]). Proof. ramps. Qed.

(** ** C40.  Weights (k,o), biases (1,o); [affine k W b r j] is the sum over p < k of r p * W(p,j), plus b(0,j). *)
Theorem C40_batch : forall {T} {S : Scalar T} (l : fc T) k o (x : tensor T) n, fc_wf l k o -> good x -> tdims x = [n; k] -> n * o <= INT_MAX ->
  fc_forward l x = (mkFC (fc_w l) (fc_b l) (Some x) (fc_gw l) (fc_gb l),
    Ok (tensor_of [n; o] (fn2 (fun i j => s_add (sum_to k (fun p => s_mul (el x [i; p]) (el (fc_w l) [p; j]))) (el (fc_b l) [0; j]))))).
Proof. exact @fc_forward_2. Qed.
Theorem C40_single : forall {T} {S : Scalar T} (l : fc T) k o (x : tensor T), fc_wf l k o -> good x -> tdims x = [k] ->
  fc_forward l x = (mkFC (fc_w l) (fc_b l) (Some x) (fc_gw l) (fc_gb l),
    Ok (tensor_of [o] (fn1 (fun j => s_add (sum_to k (fun p => s_mul (el x [p]) (el (fc_w l) [p; j]))) (el (fc_b l) [0; j]))))).
Proof. exact @fc_forward_1. Qed.
Theorem C40_rows_independent : forall {T} {S : Scalar T} (l : fc T) k o (x x' y y' : tensor T) n n' i i', fc_wf l k o ->
  good x -> tdims x = [n; k] -> n * o <= INT_MAX -> good x' -> tdims x' = [n'; k] -> n' * o <= INT_MAX -> 0 <= i < n -> 0 <= i' < n' ->
  (forall p, 0 <= p < k -> el x [i; p] = el x' [i'; p]) -> snd (fc_forward l x) = Ok y -> snd (fc_forward l x') = Ok y' ->
  forall j, 0 <= j < o -> el y [i; j] = el y' [i'; j].
Proof. exact @fc_rows_independent. Qed.
Theorem C40_wrong_width_throws : forall {T} {S : Scalar T} (l : fc T) k o (x : tensor T), fc_wf l k o -> good x ->
  last (tdims x) 0 <> k \/ (3 < length (tdims x))%nat -> snd (fc_forward l x) = Throw InvalidArgument.
Proof. exact @fc_forward_bad. Qed.
Theorem C40_constructed : forall {T} {S : Scalar T} {G} {HR : Rng T G} k o (g : G), 0 < k -> 0 < o -> k * o <= INT_MAX ->
  exists l g', fc_new k o g = Ok (l, g') /\ fc_wf l k o /\ fc_in l = None.
Proof. exact @fc_new_ok. Qed.
Example C40_case : fc_wf (mkFC (ramp [3; 2]) (ramp [1; 2]) None None None) 3 2 /\ good (ramp [2; 3]) /\
  snd (fc_forward (mkFC (ramp [3; 2]) (ramp [1; 2]) None None None) (ramp [2; 3])) = Ok (mkTensor (shape_of [2; 2]) [10; 14; 28; 41]) /\
  snd (fc_forward (mkFC (ramp [3; 2]) (ramp [1; 2]) None None None) (ramp [3])) = Ok (mkTensor (shape_of [2]) [10; 14]) /\
  snd (fc_forward (mkFC (ramp [3; 2]) (ramp [1; 2]) None None None) (ramp [3; 2])) = Throw InvalidArgument.
Proof. split; [split; [ramps|split; [reflexivity|split; [ramps|reflexivity]]]|]. split; [ramps|]. vm_compute. auto. Qed.
Print Assumptions C40_batch.
Print Assumptions C40_single.
Print Assumptions C40_rows_independent.
Print Assumptions C40_wrong_width_throws.
Print Assumptions C40_constructed.

(** ** C41.  Along any path of inputs, weights and biases the outputs form a path with velocity dY, and <g,dY> is
    the sum of the inner products of the gradients with the velocities.  Setting two of the three velocities
    to zero gives the three gradients separately. *)
Theorem C41_batch : forall n k o X W B s dX dW dB i0 w0 b0,
  curve [n; k] X s dX -> curve [k; o] W s dW -> curve [1; o] B s dB -> n * o <= INT_MAX ->
  exists Y dY, (forall u, snd (fc_forward (mkFC (W u) (B u) i0 w0 b0) (X u)) = Ok (Y u)) /\ curve [n; o] Y s dY /\
    forall g, good g -> tdims g = [n; o] -> exists gx gw gb,
      fc_backward (fst (fc_forward (mkFC (W s) (B s) i0 w0 b0) (X s))) g = (mkFC (W s) (B s) (Some (X s)) (Some gw) (Some gb), Ok gx) /\
      good gx /\ tdims gx = [n; k] /\ good gw /\ tdims gw = [k; o] /\ good gb /\ tdims gb = [1; o] /\
      dot g dY = (dot gx dX + dot gw dW + dot gb dB)%R.
Proof. exact fc_gradient_2. Qed.
(** For a rank-1 sample the input gradient has the right values but shape (1,k): see C42. *)
Theorem C41_single : forall k o X W B s dX dW dB i0 w0 b0,
  curve [k] X s dX -> curve [k; o] W s dW -> curve [1; o] B s dB ->
  exists Y dY, (forall u, snd (fc_forward (mkFC (W u) (B u) i0 w0 b0) (X u)) = Ok (Y u)) /\ curve [o] Y s dY /\
    forall g, good g -> tdims g = [o] -> exists gx gw gb,
      fc_backward (fst (fc_forward (mkFC (W s) (B s) i0 w0 b0) (X s))) g = (mkFC (W s) (B s) (Some (X s)) (Some gw) (Some gb), Ok gx) /\
      good gx /\ tdims gx = [1; k] /\ good gw /\ tdims gw = [k; o] /\ good gb /\ tdims gb = [1; o] /\
      dot g dY = (rsum (zrange 0 k) (fun p => el gx [0%Z; p] * el dX [p]) + dot gw dW + dot gb dB)%R.
Proof. exact fc_gradient_1. Qed.
(** Every point and direction lies on such a path. *)
Example C41_case : forall x d : tensor R, good x -> good d -> tdims d = tdims x -> exists X, X 0%R = x /\ curve (tdims x) X 0 d.
Proof. exact line_curve. Qed.
Example C41_numbers : snd (fc_backward (fst (fc_forward (mkFC (ramp [3; 2]) (ramp [1; 2]) None None None) (ramp [2; 3]))) (ramp [2; 2])) =
    Ok (mkTensor (shape_of [2; 3]) [1; 3; 5; 3; 13; 23]) /\
  fc_gb (fst (fc_backward (fst (fc_forward (mkFC (ramp [3; 2]) (ramp [1; 2]) None None None) (ramp [2; 3]))) (ramp [2; 2]))) = Some (mkTensor (shape_of [1; 2]) [2; 4]).
Proof. vm_compute. auto. Qed.
Print Assumptions C41_batch.
Print Assumptions C41_single.

(** ** C43.  [l] is the layer after any earlier calls. *)
Theorem C43_roundtrip_partial : forall {T} {S : Scalar T} (l : flatten) (x : tensor T) b c ds, good x -> tdims x = b :: c :: ds -> ds <> [] ->
  exists l' y, flatten_forward l x = (l', Ok y) /\ good y /\ tdims y = [b; prod (c :: ds)] /\ tdata y = tdata x /\
    forall g : tensor T, good g -> tdims g = tdims y -> exists z, flatten_backward l' g = Ok z /\ good z /\ tdims z = tdims x /\ tdata z = tdata g.
Proof. exact @flatten_roundtrip. Qed.
Theorem C43_rank_one_throws : forall {T} (l : flatten) (x : tensor T) n, tdims x = [n] -> flatten_forward l x = (l, Throw InvalidArgument).
Proof. exact @flatten_rank1. Qed.
(** A (batch, features) input is passed through without being remembered: backward then restores the shape of an
    older input, and on a fresh layer dereferences an empty optional. *)
Theorem C43_refuted : exists (l : flatten) (x : tensor Z), good x /\ tdims x = [2; 3] /\ l = fst (flatten_forward flatten_new (ramp [2; 3; 1])) /\
  flatten_forward l x = (l, Ok x) /\ exists z, flatten_backward l x = Ok z /\ tdims z = [2; 3; 1].
Proof. exact (ex_intro _ _ (ex_intro _ (ramp [2; 3]) (conj ramp_23 (conj eq_refl (conj eq_refl (conj eq_refl (ex_intro _ _ (conj eq_refl eq_refl)))))))). Qed.
Theorem C43_rank_two_backward_undefined : forall {T} (x g : tensor T) b f, tdims x = [b; f] ->
  flatten_forward flatten_new x = (flatten_new, Ok x) /\ flatten_backward flatten_new g = UB.
Proof. exact @flatten_rank2. Qed.
Example C43_case : good (ramp [2; 3; 4]) /\ snd (flatten_forward flatten_new (ramp [2; 3; 4])) = Ok (mkTensor (shape_of [2; 12]) (zrange 0 24)).
Proof. split; [ramps|reflexivity]. Qed.
Print Assumptions C43_roundtrip_partial.
Print Assumptions C43_rank_one_throws.
Print Assumptions C43_refuted.
Print Assumptions C43_rank_two_backward_undefined.

(** ** C45.  Full statement: for every configuration the output is [conv_spec stride pad dil].  Proved for one input
    channel, stride 1, no padding, dilation 1 (any batch, output channels, kernel, arithmetic). *)
Theorem C45_partial : forall {T} {S : Scalar T} (l : conv T) (x : tensor T) n h w, conv_wf l -> good x -> tdims x = [n; 1; h; w] ->
  cv_ic l = 1 -> cv_stride l = 1 -> cv_pad l = 0 -> cv_dil l = 1 ->
  cv_kh l <= h -> cv_kw l <= w -> n * (cv_oc l * ((h - cv_kh l + 1) * (w - cv_kw l + 1))) <= INT_MAX ->
  snd (conv_forward l x) = Ok (conv_spec (cv_stride l) (cv_pad l) (cv_dil l) x (cv_w l) (cv_b l) n (cv_ic l) h w (cv_oc l) (cv_kh l) (cv_kw l)).
Proof. exact @conv_forward_spec. Qed.
(** What is computed in every configuration: only input channel 0, and as if stride 1, padding 0, dilation 1. *)
Theorem C45_computed : forall {T} {S : Scalar T} (l : conv T) (x : tensor T) n h w, conv_wf l -> good x -> tdims x = [n; cv_ic l; h; w] ->
  cv_kh l <= h -> cv_kw l <= w -> n * (cv_oc l * ((h - cv_kh l + 1) * (w - cv_kw l + 1))) <= INT_MAX ->
  snd (conv_forward l x) = Ok (tensor_of [n; cv_oc l; h - cv_kh l + 1; w - cv_kw l + 1] (fn4 (fun i o y z =>
    s_add (fsum (map (fn2 (fun p q => s_mul (el x [i; 0; y + p; z + q]) (el (cv_w l) [o; 0; p; q]))) (all_indices [cv_kh l; cv_kw l]))) (el (cv_b l) [o; 0])))).
Proof. exact @conv_forward_out. Qed.
Theorem C45_ignores_stride_padding_dilation : forall {T} {S : Scalar T} (W b x : tensor T) i0 w0 b0 ic oc kh kw s p d s' p' d',
  snd (conv_forward (mkConv W b i0 w0 b0 ic oc kh kw s p d) x) = snd (conv_forward (mkConv W b i0 w0 b0 ic oc kh kw s' p' d') x).
Proof. exact @conv_options_ignored. Qed.
(** One configuration for each of the four deviations. *)
Definition conv_fails (ic oc kh kw s p d n h w : Z) : Prop :=
  let l := mkConv (ramp [oc; ic; kh; kw]) (ramp [oc; 1]) None None None ic oc kh kw s p d in
  let x := ramp [n; ic; h; w] in
  conv_wf l /\ good x /\ snd (conv_forward l x) <> Ok (conv_spec s p d x (cv_w l) (cv_b l) n ic h w oc kh kw).
Lemma conv_fails_4 : conv_fails 1 1 2 2 2 0 1 1 4 4 /\ conv_fails 1 1 2 2 1 1 1 1 4 4 /\ conv_fails 1 1 2 2 1 0 2 1 4 4 /\ conv_fails 2 1 2 2 1 0 1 1 4 4.
Proof.
  unfold conv_fails. repeat split; cbv zeta; try ramps; try (vm_compute; discriminate).
Qed.
Theorem C45_refuted : exists ic oc kh kw s p d n h w, conv_fails ic oc kh kw s p d n h w.
Proof. exact (ex_intro _ 1 (ex_intro _ 1 (ex_intro _ 2 (ex_intro _ 2 (ex_intro _ 2 (ex_intro _ 0 (ex_intro _ 1 (ex_intro _ 1 (ex_intro _ 4 (ex_intro _ 4 (proj1 conv_fails_4))))))))))). Qed.
Theorem C45_stride_padding_dilation_channels_refuted : conv_fails 1 1 2 2 2 0 1 1 4 4 /\ conv_fails 1 1 2 2 1 1 1 1 4 4 /\ conv_fails 1 1 2 2 1 0 2 1 4 4 /\ conv_fails 2 1 2 2 1 0 1 1 4 4.
Proof. exact conv_fails_4. Qed.
(** A wrong rank or channel count is an assertion failure, not an exception. *)
Theorem C45_bad_input_aborts : forall {T} {S : Scalar T} (l : conv T) (x : tensor T), (length (tdims x) <> 4%nat \/ nth 1 (tdims x) 0 <> cv_ic l) -> conv_forward l x = (l, Abort).
Proof. exact @conv_forward_abort. Qed.
Theorem C45_constructed : forall {T} {S : Scalar T} {G} {HR : Rng T G} ic oc kh kw s p d (g : G), 0 < ic -> 0 < oc -> 0 < kh -> 0 < kw -> oc * (ic * (kh * kw)) <= INT_MAX ->
  exists l g', conv_new ic oc kh kw s p d g = Ok (l, g') /\ conv_wf l /\ cv_in l = None /\ cv_stride l = s /\ cv_pad l = p /\ cv_dil l = d /\ cv_kh l = kh /\ cv_kw l = kw /\ cv_ic l = ic /\ cv_oc l = oc.
Proof. exact @conv_new_ok. Qed.
Example C45_case : conv_wf (mkConv (ramp [2; 1; 2; 2]) (ramp [2; 1]) None None None 1 2 2 2 1 0 1) /\ good (ramp [1; 1; 3; 3]) /\
  snd (conv_forward (mkConv (ramp [2; 1; 2; 2]) (ramp [2; 1]) None None None 1 2 2 2 1 0 1) (ramp [1; 1; 3; 3])) =
    Ok (mkTensor (shape_of [1; 2; 2; 2]) [19; 25; 37; 43; 52; 74; 118; 140]).
Proof. split; [split; [ramps|split; [reflexivity|split; [ramps|reflexivity]]]|]. split; [ramps|]. vm_compute. auto. Qed.
Print Assumptions C45_partial.
Print Assumptions C45_computed.
Print Assumptions C45_ignores_stride_padding_dilation.
Print Assumptions C45_refuted.
Print Assumptions C45_stride_padding_dilation_channels_refuted.
Print Assumptions C45_bad_input_aborts.
Print Assumptions C45_constructed.

(** ** C46.  backward is the gradient of forward exactly for one sample and one output channel. *)
Theorem C46_partial : forall n ic h w oc kh kw st pd dl, 0 < n -> 0 < ic -> 0 < oc -> 0 < kh <= h -> 0 < kw <= w ->
  n * (ic * (h * w)) <= INT_MAX -> n * (oc * ((h - kh + 1) * (w - kw + 1))) <= INT_MAX -> oc * (ic * (kh * kw)) <= INT_MAX -> oc <= INT_MAX ->
  n = 1 -> oc = 1 -> conv_backward_is_gradient n ic h w oc kh kw st pd dl.
Proof. exact conv_gradient_11. Qed.
Theorem C46_only_one_sample_and_channel : forall n ic h w oc kh kw st pd dl, 0 < n -> 0 < ic -> 0 < oc -> 0 < kh <= h -> 0 < kw <= w ->
  n * (ic * (h * w)) <= INT_MAX -> n * (oc * ((h - kh + 1) * (w - kw + 1))) <= INT_MAX -> oc * (ic * (kh * kw)) <= INT_MAX -> oc <= INT_MAX ->
  conv_backward_is_gradient n ic h w oc kh kw st pd dl -> n = 1 /\ oc = 1.
Proof. exact conv_gradient_only_11. Qed.
Theorem C46_refuted : exists n ic h w oc kh kw st pd dl, (0 < n /\ 0 < ic /\ 0 < oc /\ 0 < kh <= h /\ 0 < kw <= w) /\ ~ conv_backward_is_gradient n ic h w oc kh kw st pd dl.
Proof. exact conv_gradient_fails. Qed.
Example C46_case : snd (conv_backward (fst (conv_forward (mkConv (ramp [1; 1; 2; 2]) (ramp [1; 1]) None None None 1 1 2 2 1 0 1) (ramp [1; 1; 3; 3]))) (ramp [1; 1; 2; 2])) =
  Ok (mkTensor (shape_of [1; 1; 3; 3]) [0; 0; 1; 0; 4; 6; 4; 12; 9]).
Proof. vm_compute. auto. Qed.
Print Assumptions C46_partial.
Print Assumptions C46_only_one_sample_and_channel.
Print Assumptions C46_refuted.

(** ** C72.  [spreads a]: ReLU, Sigmoid, Tanh, whose backward broadcasts.  For them every step of a training pass over
    fully connected (k,m), activation, fully connected (m,o) succeeds on a rank-1 sample. *)
Theorem C72_forward : forall {T} {S : Scalar T} (a : act T) (l1 l3 : fc T) k m o (x : tensor T), a <> Softmax -> fc_wf l1 k m -> fc_wf l3 m o -> good x -> tdims x = [k] ->
  exists y1 y2 y3, fc_forward l1 x = (mkFC (fc_w l1) (fc_b l1) (Some x) (fc_gw l1) (fc_gb l1), Ok y1) /\ good y1 /\ tdims y1 = [m] /\
    act_fwd a y1 = Ok y2 /\ good y2 /\ tdims y2 = [m] /\
    fc_forward l3 y2 = (mkFC (fc_w l3) (fc_b l3) (Some y2) (fc_gw l3) (fc_gb l3), Ok y3) /\ good y3 /\ tdims y3 = [o].
Proof. exact @chain_forward. Qed.
Theorem C72_backward_partial : forall {T} {S : Scalar T} (a : act T) (l1 l3 : fc T) k m o (x y1 y2 g : tensor T), a <> Softmax -> fc_wf l1 k m -> fc_wf l3 m o ->
  fc_in l1 = Some x -> good x -> tdims x = [k] -> good y1 -> tdims y1 = [m] -> fc_in l3 = Some y2 -> good y2 -> tdims y2 = [m] -> good g -> tdims g = [o] ->
  exists gw3 gb3 g2, fc_backward l3 g = (mkFC (fc_w l3) (fc_b l3) (Some y2) (Some gw3) (Some gb3), Ok g2) /\ tdims g2 = [1; m] /\
    if match a with ReLU | Sigmoid | Tanh => true | _ => false end
    then exists g1 gw1 gb1 g0, act_bwd a y1 g2 = Ok g1 /\ tdims g1 = [1; m] /\
           fc_backward l1 g1 = (mkFC (fc_w l1) (fc_b l1) (Some x) (Some gw1) (Some gb1), Ok g0)
    else act_bwd a y1 g2 = Throw InvalidArgument.
Proof. exact @chain_backward. Qed.
Definition l12 : fc Z := mkFC (ramp [1; 2]) (ramp [1; 2]) (Some (ramp [1])) None None.
Definition l21 : fc Z := mkFC (ramp [2; 1]) (ramp [1; 1]) (Some (ramp [2])) None None.
Lemma leaky_fails : exists (a : act Z) (l1 l3 : fc Z) (x y1 y2 g g2 : tensor Z), a = LeakyReLU 0 /\ tdims x = [1] /\
  snd (fc_forward l1 x) = Ok y1 /\ act_fwd a y1 = Ok y2 /\ fc_in l3 = Some y2 /\ tdims g = [1] /\ snd (fc_backward l3 g) = Ok g2 /\ act_bwd a y1 g2 = Throw InvalidArgument.
Proof. exists (LeakyReLU 0), l12, l21, (ramp [1]), (ramp [2]), (ramp [2]), (ramp [1]). eexists. repeat split. Qed.
Theorem C72_refuted : exists (a : act Z) (l1 l3 : fc Z) (x y1 y2 g g2 : tensor Z), a = LeakyReLU 0 /\ tdims x = [1] /\
  snd (fc_forward l1 x) = Ok y1 /\ act_fwd a y1 = Ok y2 /\ fc_in l3 = Some y2 /\ tdims g = [1] /\ snd (fc_backward l3 g) = Ok g2 /\ act_bwd a y1 g2 = Throw InvalidArgument.
Proof. exact leaky_fails. Qed.
Example C72_case : fc_wf l12 1 2 /\ fc_wf l21 2 1 /\ good (ramp [1]) /\ good (ramp [2]).
Proof. split; [split; [ramps|split; [reflexivity|split; [ramps|reflexivity]]]|]. split; [split; [ramps|split; [reflexivity|split; [ramps|reflexivity]]]|]. split; ramps. Qed.
Print Assumptions C72_forward.
Print Assumptions C72_backward_partial.
Print Assumptions C72_refuted.
