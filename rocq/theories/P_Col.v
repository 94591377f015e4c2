(** * The patch functions of the convolution layer (C120) *)
From Coq Require Import Reals Lra.
From Verif Require Import Base Scalar ScalarR Types Spec M_Shape M_Tensor M_Adv M_Layers M_Col SpecR SpecNN SpecCol
  L_Index L_Tensor L_Col P_Layers.
Local Open Scope Z_scope.

(** ** C120 "im2col lists every patch of every image, in order" *)
Theorem C120_patches : forall {T} {S : Scalar T} n ic h w kh kw stride pad dil, patches_fit n ic h w kh kw stride pad dil -> 0 < n -> 0 < ic -> 0 < h -> 0 < w ->
  forall x : tensor T, good x -> tdims x = [n; ic; h; w] -> im2col x kh kw stride pad dil = Ok (patches n ic h w kh kw stride pad dil x).
Proof. exact @im2col_ok. Qed.
(** The kernels as rows times this matrix, plus the biases, is the convolution with stride, padding and dilation over all
    channels that the constructor describes: what forward does not compute (C45). *)
Theorem C120_convolution : forall {T} {S : Scalar T} n ic h w kh kw stride pad dil, patches_fit n ic h w kh kw stride pad dil -> 0 < n -> 0 < ic -> 0 < h -> 0 < w ->
  let oh := conv_extent stride pad dil h kh in let ow := conv_extent stride pad dil w kw in
  forall oc (x W b : tensor T), (forall a b : T, s_mul a b = s_mul b a) -> good x -> tdims x = [n; ic; h; w] -> good W -> tdims W = [oc; ic; kh; kw] -> oc * (n * (oh * ow)) <= INT_MAX ->
  exists P, (m <- im2col x kh kw stride pad dil ;; k <- t_reshape W [oc; ic * (kh * kw)] ;; t_matmul k m) = Ok P /\ tdims P = [oc; n * (oh * ow)] /\
    forall i o y z, 0 <= i < n -> 0 <= o < oc -> 0 <= y < oh -> 0 <= z < ow ->
      s_add (el P [o; (i * oh + y) * ow + z]) (el b [o; 0]) = el (conv_spec stride pad dil x W b n ic h w oc kh kw) [i; o; y; z].
Proof. exact @patches_product. Qed.
(** col2im is its transpose, so it takes gradients of patches to gradients of images. *)
Theorem C120_transpose : forall n ic h w kh kw stride pad dil, patches_fit n ic h w kh kw stride pad dil -> 0 < n -> 0 < ic -> 0 < h -> 0 < w -> n * (ic * (h * w)) <= INT_MAX ->
  let cells := [ic * (kh * kw); n * (conv_extent stride pad dil h kh * conv_extent stride pad dil w kw)] in
  forall x m : tensor R, good x -> tdims x = [n; ic; h; w] -> good m -> tdims m = cells ->
  exists p z, im2col x kh kw stride pad dil = Ok p /\ tdims p = cells /\ col2im m (shape_of [n; ic; h; w]) kh kw stride pad dil = Ok z /\ tdims z = [n; ic; h; w] /\ dot p m = dot x z.
Proof. exact col_adjoint. Qed.
(** "A kernel that does not fit is refused" is false: the division truncates towards zero, so with stride 2 a kernel one
    larger than the image gives one patch, with zeros outside the image. *)
Lemma too_large : exists x : tensor Z, good x /\ tdims x = [1; 1; 2; 2] /\ conv_extent 2 0 1 2 3 = 0 /\
  exists m, im2col x 3 3 2 0 1 = Ok m /\ tdims m = [9; 1] /\ im2col x 3 3 1 0 1 = Throw InvalidArgument.
Proof. exists (ramp [1; 1; 2; 2]). split; [ramps|]. split; [reflexivity|]. split; [reflexivity|]. eexists. split; [vm_compute; reflexivity|]. split; vm_compute; reflexivity. Qed.
Theorem C120_fit_refuted : exists x : tensor Z, good x /\ tdims x = [1; 1; 2; 2] /\ conv_extent 2 0 1 2 3 = 0 /\
  exists m, im2col x 3 3 2 0 1 = Ok m /\ tdims m = [9; 1] /\ im2col x 3 3 1 0 1 = Throw InvalidArgument.
Proof. exact too_large. Qed.

(** Two images of two channels, stride 2, padding 1, dilation 2. *)
Example C120_fits : patches_fit 2 2 4 3 2 2 2 1 2 /\ conv_extent 2 1 2 4 2 = 2 /\ conv_extent 2 1 2 3 2 = 2.
Proof. unfold patches_fit. vm_compute. intuition congruence. Qed.
Example C120_case : im2col (ramp [1; 1; 3; 3]) 2 2 1 0 1 = Ok (mkTensor (shape_of [4; 4]) [0; 1; 3; 4; 1; 2; 4; 5; 3; 4; 6; 7; 4; 5; 7; 8]) /\
  col2im (ramp [4; 4]) (shape_of [1; 1; 3; 3]) 2 2 1 0 1 = Ok (mkTensor (shape_of [1; 1; 3; 3]) [0; 5; 5; 10; 30; 20; 10; 25; 15]) /\
  im2col (ramp [1; 1; 2; 2]) 2 2 1 1 1 = Ok (mkTensor (shape_of [4; 9]) [0; 0; 0; 0; 0; 1; 0; 2; 3; 0; 0; 0; 0; 1; 0; 2; 3; 0; 0; 0; 1; 0; 2; 3; 0; 0; 0; 0; 1; 0; 2; 3; 0; 0; 0; 0]).
Proof. vm_compute. auto. Qed.
Print Assumptions C120_patches.
Print Assumptions C120_convolution.
Print Assumptions C120_transpose.
Print Assumptions C120_fit_refuted.
