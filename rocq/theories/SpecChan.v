(** * Vocabulary for C144: colour images *)
From Coq Require Import ZArith List.
From Verif Require Import Base Scalar Types Spec M_Tensor M_Act M_Loss M_Layers M_Reg M_Opt M_Net.
Import ListNotations.
Local Open Scope Z_scope.

Section S.
Context {T : Type} {S : Scalar T}.
(** Two batches of images of the same sizes whose first channels agree; nothing is said of the other channels. *)
Definition first_channel (x x' : tensor T) : Prop :=
  good x /\ good x' /\ tdims x' = tdims x /\ forall b i j, in_range (tdims x) [b; 0; i; j] -> el x' [b; 0; i; j] = el x [b; 0; i; j].
(** The same convolution layer, which has last been given [x] in one case and [x'] in the other. *)
Definition given (l l' : conv T) : Prop :=
  l' = mkConv (cv_w l) (cv_b l) (cv_in l') (cv_gw l) (cv_gb l) (cv_ic l) (cv_oc l) (cv_kh l) (cv_kw l) (cv_stride l) (cv_pad l) (cv_dil l) /\
  match cv_in l, cv_in l' with None, None => True | Some x, Some x' => first_channel x x' | _, _ => False end.
(** The same network, whose first layer is a convolution, up to the images it has last been given: all weights, biases, gradients, the optimizer with its history and
    the random engine agree. *)
Definition same_network {G} (n n' : net T G) : Prop :=
  exists l l' r, n_layers n = LConv l :: r /\ n_layers n' = LConv l' :: r /\ given l l' /\ n_loss n' = n_loss n /\ n_opt n' = n_opt n /\ n_rng n' = n_rng n.
End S.
