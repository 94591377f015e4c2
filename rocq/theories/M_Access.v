(** * The remaining accessors: getters and setters of the parametric layers, and the views' toString *)
From Coq Require Import ZArith Ascii String.
From Verif Require Import Base Scalar Types TextBase M_Shape M_Tensor M_Layers M_Text.

Section Access.
Context {T : Type}.

(** FullyConnectedLayer.hpp:105-119, Conv2DLayer.hpp:152-166: copies of the members.  The gradients are empty optionals before the
    first backward; dereferencing one is undefined. *)
Definition get_grad (g : option (tensor T)) : outcome (tensor T) := match g with Some t => Ok t | None => UB end.
Definition fc_get_weights (l : fc T) : tensor T := fc_w l.
Definition fc_get_biases (l : fc T) : tensor T := fc_b l.
Definition fc_get_gw (l : fc T) : outcome (tensor T) := get_grad (fc_gw l).
Definition fc_get_gb (l : fc T) : outcome (tensor T) := get_grad (fc_gb l).
Definition conv_get_weights (l : conv T) : tensor T := cv_w l.
Definition conv_get_biases (l : conv T) : tensor T := cv_b l.
Definition conv_get_gw (l : conv T) : outcome (tensor T) := get_grad (cv_gw l).
Definition conv_get_gb (l : conv T) : outcome (tensor T) := get_grad (cv_gb l).
(** FullyConnectedLayer.hpp:132-138 *)
Definition fc_set_gb (l : fc T) (g : tensor T) : fc T := mkFC (fc_w l) (fc_b l) (fc_in l) (fc_gw l) (Some g).
Definition fc_set_gw (l : fc T) (g : tensor T) : fc T := mkFC (fc_w l) (fc_b l) (fc_in l) (Some g) (fc_gb l).
(** Conv2DLayer.hpp:168-174 *)
Definition conv_set_weights (l : conv T) (w : tensor T) : conv T :=
  mkConv w (cv_b l) (cv_in l) (cv_gw l) (cv_gb l) (cv_ic l) (cv_oc l) (cv_kh l) (cv_kw l) (cv_stride l) (cv_pad l) (cv_dil l).
Definition conv_set_biases (l : conv T) (b : tensor T) : conv T :=
  mkConv (cv_w l) b (cv_in l) (cv_gw l) (cv_gb l) (cv_ic l) (cv_oc l) (cv_kh l) (cv_kw l) (cv_stride l) (cv_pad l) (cv_dil l).

(** BroadcastView.hpp:130-134 *)
Definition bview_text (v : bview T) : outcome string :=
  a <- shape_text (bv_shape v) ;; b <- shape_text (tshape (bv_orig v)) ;;
  Ok ("BroadcastView of shape " ++ a ++ " from original shape " ++ b)%string.
(** SliceView.hpp:141-145 *)
Definition sview_text (v : sview T) : outcome string :=
  a <- shape_text (sv_shape v) ;; b <- shape_text (tshape (sv_orig v)) ;;
  Ok ("SliceView of shape " ++ a ++ " from original shape " ++ b)%string.
End Access.
