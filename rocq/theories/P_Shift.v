(** * Properties C127 and C128: moved images, and convolutions as dense layers *)
From Verif Require Import Base Scalar Types Spec SpecNN SpecLayers M_Shape M_Tensor M_Adv M_Act M_Layers M_Reg M_Opt M_Net SpecNet SpecBatch SpecShift
  L_Index L_Shape L_Tensor L_Glue L_Nest L_Matmul L_Layers L_Conv L_Net L_Shift P_Tensor P_Layers P_Net P_Batch.
Local Existing Instance counter_rng.

(** ** C127
    A network of convolution, pooling, activation (not Softmax), Dropout and batch normalisation layers, the last two in evaluation mode: when
    the image is moved by a multiple of the product of the pooling strides, the output is the same moved by that multiple, up to what the edge
    cuts off.  The arithmetic is arbitrary. *)
Theorem C127_shifted_image : forall {T} {S : Scalar T} {G} {HR : Rng T G} (nt : net T G) D D' (x x' : tensor T) dy dx,
  evaluates_all D (n_layers nt) D' -> Forall positional (n_layers nt) -> good x -> good x' -> tdims x = D ->
  shifted (pitches (n_layers nt) * dy) (pitches (n_layers nt) * dx) x x' ->
  exists n1 n2 y y', net_predict nt x = (n1, Ok y) /\ net_predict nt x' = (n2, Ok y') /\ tdims y = D' /\ shifted dy dx y y'.
Proof. exact @shift_net. Qed.
Print Assumptions C127_shifted_image.

Definition netF : net Z Z := mkNet [LConv convE; LBN (bnE false 2); LAct (act_new ReLU); LPool (pool_new 2 2 0); LDrop (mkDrop 0 None false)] None None 0.
(** The image moved down by [dy] and right by [dx]; zeros come in at the edge. *)
Definition move (dy dx : Z) (ds : list Z) (x : tensor Z) : tensor Z := tensor_of ds (fn4 (fun i c y z => if (dy <=? y) && (dx <=? z) then el x [i; c; y - dy; z - dx] else 0)).
Lemma move_shifted : forall dy dx n c h w (x : tensor Z), 0 <= dy -> 0 <= dx -> tdims x = [n; c; h; w] -> shifted dy dx x (move dy dx [n; c; h; w] x).
Proof.
  intros dy dx n c h w x Hy Hx E. exists n, c, h, w. split; [exact E|]. split; [reflexivity|]. intros i ch y z I1 I2. unfold move. rewrite el_tensor_of by exact I2. unfold fn4. cbn [nth].
  apply in_range_4 in I1. destruct I1 as (? & ? & ? & ? & E1 & _ & _ & Hh & Hw). injection E1 as <- <- <- <-.
  replace (dy <=? y + dy) with true by (symmetry; apply Z.leb_le; lia). replace (dx <=? z + dx) with true by (symmetry; apply Z.leb_le; lia). cbn [andb].
  replace (y + dy - dy) with y by lia. replace (z + dx - dx) with z by lia. reflexivity.
Qed.
Local Ltac ones := apply oneE_good; [repeat constructor; try discriminate|vm_compute; discriminate].
(** An image moved down and right by two pixels; the pooled outputs move by one. *)
Example C127_case : evaluates_all [1; 1; 7; 7] (n_layers netF) [1; 2; 3; 3] /\ Forall positional (n_layers netF) /\ good (ramp [1; 1; 7; 7]) /\ good (move 2 2 [1; 1; 7; 7] (ramp [1; 1; 7; 7])) /\
  shifted (pitches (n_layers netF) * 1) (pitches (n_layers netF) * 1) (ramp [1; 1; 7; 7]) (move 2 2 [1; 1; 7; 7] (ramp [1; 1; 7; 7])) /\ pitches (n_layers netF) = 2.
Proof.
  split; [|split; [repeat constructor; discriminate|split; [ramps|split; [apply good_tensor_of; [repeat constructor; discriminate|vm_compute; discriminate]|split; [apply (move_shifted 2 2 1 1 7 7); [lia|lia|reflexivity]|reflexivity]]]]].
  unfold evaluates_all, netF. cbn [n_layers].
  apply acc_cons with [1; 2; 6; 6].
  { apply (ev_conv 1 7 7 convE); cbn [cv_w cv_b cv_kh cv_kw cv_oc cv_ic convE]; try reflexivity; try ramps; try lia; vm_compute; discriminate. }
  apply acc_cons with [1; 2; 6; 6].
  { apply (ev_bn 2); [|reflexivity|right; exists 1, 6, 6; reflexivity]; unfold bn_rows; cbn [bn_gamma bn_beta bn_rmean bn_rvar bnE]; (split; [|split; [|split]]); (split; [ones|reflexivity]). }
  apply acc_cons with [1; 2; 6; 6]; [apply ev_act; discriminate|].
  apply acc_cons with [1; 2; 3; 3]; [apply (ev_pool 1 2 6 6); cbn; lia|].
  apply acc_cons with [1; 2; 3; 3]; [apply ev_drop; reflexivity|apply acc_nil].
Qed.
(** Moved by one pixel, the same image gives an output that is neither the old one nor the old one moved. *)
Lemma half_stride : exists (nt : net Z Z) (x x' y y' : tensor Z), pitches (n_layers nt) = 2 /\ Forall positional (n_layers nt) /\ good x /\ shifted 0 1 x x' /\
  snd (net_predict nt x) = Ok y /\ snd (net_predict nt x') = Ok y' /\ ~ shifted 0 0 y y' /\ ~ shifted 0 1 y y'.
Proof.
  exists netF, (ramp [1; 1; 7; 7]), (move 0 1 [1; 1; 7; 7] (ramp [1; 1; 7; 7])). do 2 eexists. split; [reflexivity|]. split; [apply C127_case|]. split; [ramps|].
  split; [apply (move_shifted 0 1 1 1 7 7); [lia|lia|reflexivity]|]. split; [vm_compute; reflexivity|]. split; [vm_compute; reflexivity|].
  split; intros (n & c & h & w & E & _ & H); injection E as <- <- <- <-;
    specialize (H 0 0 0 1 ltac:(repeat (apply Forall2_cons; [lia|]); apply Forall2_nil) ltac:(repeat (apply Forall2_cons; [lia|]); apply Forall2_nil)); vm_compute in H; discriminate H.
Qed.
Theorem C127_half_stride : exists (nt : net Z Z) (x x' y y' : tensor Z), pitches (n_layers nt) = 2 /\ Forall positional (n_layers nt) /\ good x /\ shifted 0 1 x x' /\
  snd (net_predict nt x) = Ok y /\ snd (net_predict nt x') = Ok y' /\ ~ shifted 0 0 y y' /\ ~ shifted 0 1 y y'.
Proof. exact half_stride. Qed.
Print Assumptions C127_half_stride.

(** ** C128
    A convolution whose kernel is as large as the image it is given, followed by Flatten, is Flatten followed by the dense layer with the same numbers: with
    one input channel, any number of kernels and samples, in any arithmetic, anywhere in a network. *)
Theorem C128_same_prediction_partial : forall {T} {S : Scalar T} {G} {HR : Rng T G} (nt : net T G) pre l f post f' x pre' g1 z n,
  n_layers nt = pre ++ LConv l :: LFlat f :: post -> conv_wf l -> cv_ic l = 1 ->
  forward_all pre x (n_rng nt) = (pre', g1, Ok z) -> good z -> tdims z = [n; 1; cv_kh l; cv_kw l] -> n * cv_oc l <= INT_MAX ->
  snd (net_predict (net_with nt (pre ++ LFlat f' :: LFC (as_dense l) :: post)) x) = snd (net_predict nt x).
Proof. exact @conv_dense_net. Qed.
Print Assumptions C128_same_prediction_partial.
Theorem C128_output_partial : forall {T} {S : Scalar T} {G} {HR : Rng T G} (l : conv T) f f' (x : tensor T) n (g g' : G),
  conv_wf l -> cv_ic l = 1 -> good x -> tdims x = [n; 1; cv_kh l; cv_kw l] -> n * cv_oc l <= INT_MAX ->
  exists y ls1 ls2, forward_all [LConv l; LFlat f] x g = (ls1, g, Ok y) /\ forward_all [LFlat f'; LFC (as_dense l)] x g' = (ls2, g', Ok y) /\ tdims y = [n; cv_oc l].
Proof. exact @conv_dense. Qed.
Print Assumptions C128_output_partial.
Definition netV : net Z Z := mkNet [LAct (act_new ReLU); LConv convE; LFlat flatten_new; LAct (act_new ReLU)] None None 0.
Example C128_case : conv_wf convE /\ cv_ic convE = 1 /\ snd (net_predict netV (ramp [3; 1; 2; 2])) = Ok (mkTensor (shape_of [3; 2]) [14; 39; 38; 127; 62; 215]) /\
  snd (net_predict (net_with netV ([LAct (act_new ReLU)] ++ LFlat flatten_new :: LFC (as_dense convE) :: [LAct (act_new ReLU)])) (ramp [3; 1; 2; 2])) = Ok (mkTensor (shape_of [3; 2]) [14; 39; 38; 127; 62; 215]).
Proof. split; [split; [ramps|split; [reflexivity|split; [ramps|reflexivity]]]|]. split; [reflexivity|]. split; vm_compute; reflexivity. Qed.
(** With more than one channel it is not: the convolution uses the first channel only (C45). *)
Theorem C128_channels_ignored : forall {G} {HR : Rng Z G} ic kh kw f f' (g : G), 1 < ic -> 0 < kh -> 0 < kw -> ic * (kh * kw) <= INT_MAX ->
  let l := ones_conv ic kh kw in let x := all_ones [1; ic; kh; kw] in conv_wf l /\ good x /\ exists y y',
    snd (forward_all [LConv l; LFlat f] x g) = Ok y /\ snd (forward_all [LFlat f'; LFC (as_dense l)] x g) = Ok y' /\
    tdims y = [1; 1] /\ tdims y' = [1; 1] /\ el y [0; 0] = kh * kw + 1 /\ el y' [0; 0] = ic * (kh * kw) + 1.
Proof. exact @many_channels. Qed.
Print Assumptions C128_channels_ignored.
Lemma three_channels : exists (l : conv Z) (x : tensor Z), conv_wf l /\ good x /\ tdims x = [1; cv_ic l; cv_kh l; cv_kw l] /\
  snd (forward_all [LConv l; LFlat flatten_new] x 0) <> snd (forward_all [LFlat flatten_new; LFC (as_dense l)] x 0).
Proof.
  exists (ones_conv 3 2 2), (all_ones [1; 3; 2; 2]). destruct (many_channels 3 2 2 flatten_new flatten_new 0) as (H1 & H2 & y & y' & E1 & E2 & _ & _ & V1 & V2); try lia; [vm_compute; discriminate|].
  split; [exact H1|]. split; [exact H2|]. split; [reflexivity|]. rewrite E1, E2. intros E. injection E as ->. rewrite V1 in V2. discriminate V2.
Qed.
Theorem C128_refuted : exists (l : conv Z) (x : tensor Z), conv_wf l /\ good x /\ tdims x = [1; cv_ic l; cv_kh l; cv_kw l] /\
  snd (forward_all [LConv l; LFlat flatten_new] x 0) <> snd (forward_all [LFlat flatten_new; LFC (as_dense l)] x 0).
Proof. exact three_channels. Qed.
Print Assumptions C128_refuted.
