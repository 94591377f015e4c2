(** * Specification of layer gradients *)
From Coq Require Import Reals.
From Coquelicot Require Import Coquelicot.
From Verif Require Import Base Scalar ScalarR Types Spec SpecR SpecNN M_Act M_Tensor M_Layers M_Reg.
Local Open Scope R_scope.

(** A Conv2D layer with the given kernels and biases, fresh or already used (any cached values). *)
Definition conv_layer (ic oc kh kw st pd dl : Z) (i0 w0 b0 : option (tensor R)) (W B : tensor R) : conv R :=
  mkConv W B i0 w0 b0 ic oc kh kw st pd dl.
(** backward is the gradient of forward for a Conv2D layer: along any path of inputs (n,ic,h,w), kernels and biases,
    the outputs form a path with some velocity dY, and <g,dY> is the sum of the inner products of the
    returned input gradient and the stored kernel and bias gradients with the velocities. *)
Definition conv_backward_is_gradient (n ic h w oc kh kw st pd dl : Z) : Prop :=
  forall X W B s dX dW dB i0 w0 b0,
  curve [n; ic; h; w] X s dX -> curve [oc; ic; kh; kw] W s dW -> curve [oc; 1%Z] B s dB ->
  exists Y dY, (forall u, snd (conv_forward (conv_layer ic oc kh kw st pd dl i0 w0 b0 (W u) (B u)) (X u)) = Ok (Y u)) /\
    curve [n; oc; (h - kh + 1)%Z; (w - kw + 1)%Z] Y s dY /\
    forall g, good g -> tdims g = [n; oc; (h - kh + 1)%Z; (w - kw + 1)%Z] -> exists gx gw gb,
      conv_backward (fst (conv_forward (conv_layer ic oc kh kw st pd dl i0 w0 b0 (W s) (B s)) (X s))) g =
        (conv_layer ic oc kh kw st pd dl (Some (X s)) (Some gw) (Some gb) (W s) (B s), Ok gx) /\
      good gx /\ tdims gx = [n; ic; h; w] /\ good gw /\ tdims gw = [oc; ic; kh; kw] /\ good gb /\ tdims gb = [oc; 1%Z] /\
      dot g dY = dot gx dX + dot gw dW + dot gb dB.

(** backward is the gradient of the forward pass sampled from random state [e] by a Dropout layer in training mode. *)
Definition dropout_backward_is_gradient {G} {HR : Rng R G} (l : dropout R) (e : G) (ds : list Z) : Prop :=
  forall X s dX, curve ds X s dX ->
  exists Y dY, (forall u, snd (dropout_forward l (X u) e) = Ok (Y u)) /\ curve ds Y s dY /\
    forall g, good g -> tdims g = ds -> exists gx,
      dropout_backward (fst (fst (dropout_forward l (X s) e))) g = Ok gx /\ good gx /\ tdims gx = ds /\ dot g dY = dot gx dX.

(** ** Batch normalisation states *)
Section BNS.
Context {T : Type} {S : Scalar T}.
(** A layer for [f] features whose parameters and running statistics are rows (1,f), as constructed. *)
Definition bn_rows (f : Z) (l : bn T) : Prop :=
  (good (bn_gamma l) /\ tdims (bn_gamma l) = [1; f]%Z) /\ (good (bn_beta l) /\ tdims (bn_beta l) = [1; f]%Z) /\
  (good (bn_rmean l) /\ tdims (bn_rmean l) = [1; f]%Z) /\ (good (bn_rvar l) /\ tdims (bn_rvar l) = [1; f]%Z).
(** A batch of images with [f] channels. *)
Definition images (f : Z) (x : tensor T) : Prop := good x /\ exists n h w, tdims x = [n; f; h; w].
End BNS.
