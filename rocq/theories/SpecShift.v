(** * Specification: shifted images (C127), and convolutions as dense layers (C128) *)
From Verif Require Import Base Scalar Types Spec SpecNN M_Shape M_Tensor M_Act M_Layers M_Reg M_Opt M_Net.
Local Open Scope Z_scope.

Section S.
Context {T : Type} {S : Scalar T}.

(** The images [x'] are the images [x] moved down by [dy] and right by [dx], as far as both show the same. *)
Definition shifted (dy dx : Z) (x x' : tensor T) : Prop :=
  exists n c h w, tdims x = [n; c; h; w] /\ tdims x' = [n; c; h; w] /\
    forall i ch y z, in_range [n; c; h; w] [i; ch; y; z] -> in_range [n; c; h; w] [i; ch; y + dy; z + dx] -> el x' [i; ch; y + dy; z + dx] = el x [i; ch; y; z].
(** Layers that treat all positions of an image alike. *)
Definition positional (l : layer T) : Prop :=
  match l with LConv _ | LPool _ | LDrop _ | LBN _ => True | LAct l => al_act l <> Softmax | LFC _ | LFlat _ => False end.
(** Distance in the input between neighbours in the output. *)
Definition pitch (l : layer T) : Z := match l with LPool l => po_stride l | _ => 1 end.
Definition pitches (ls : list (layer T)) : Z := fold_right (fun l s => pitch l * s) 1 ls.

(** The kernels of a convolution as the weights of a dense layer that is given the flattened image, and its biases as a row. *)
Definition dense_weights (ic oc kh kw : Z) (W : tensor T) : tensor T :=
  tensor_of [prod [ic; kh; kw]; oc] (fn2 (fun p o => el W (o :: unravel [ic; kh; kw] p))).
Definition dense_biases (oc : Z) (b : tensor T) : tensor T := tensor_of [1; oc] (fn2 (fun _ o => el b [o; 0])).
Definition as_dense (l : conv T) : fc T :=
  mkFC (dense_weights (cv_ic l) (cv_oc l) (cv_kh l) (cv_kw l) (cv_w l)) (dense_biases (cv_oc l) (cv_b l)) None None None.
End S.
