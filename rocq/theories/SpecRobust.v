(** * Vocabulary for C137: how far a change of the input can carry *)
From Coq Require Import Reals.
From Verif Require Import Base Scalar ScalarR Types Spec SpecNN SpecLayers SpecR M_Tensor M_Act M_Loss M_Layers M_Reg M_Opt M_Net SpecNet SpecFuse.
Local Open Scope R_scope.

Section S.
Context {S : Scalar R}.
(** No element of [x'] differs from that of [x] by more than [e]. *)
Definition near (e : R) (x x' : tensor R) : Prop :=
  good x' /\ tdims x' = tdims x /\ forall idx, in_range (tdims x) idx -> Rabs (el x' idx - el x idx) <= e.
(** A bound [L] on the factor by which a layer can enlarge differences: for each output of a dense layer or a convolution the sum of the
    sizes of its weights, for batch normalisation in evaluation mode the slope of each feature. *)
Definition gain (l : layer R) (L : R) : Prop :=
  0 <= L /\
  match l with
  | LFC l => forall k o j, tdims (fc_w l) = [k; o] -> (0 <= j < o)%Z -> rsum (zrange 0 k) (fun i => Rabs (el (fc_w l) [i; j])) <= L
  | LConv l => forall o, (0 <= o < cv_oc l)%Z -> rsum (all_indices [cv_kh l; cv_kw l]) (fun k => Rabs (el (cv_w l) (o :: 0%Z :: k))) <= L
  | LAct l => match al_act l with ReLU | Sigmoid | Tanh => 1 <= L | LeakyReLU al => 1 <= L /\ Rabs al <= L | Swish | Mish | Softmax => 2 <= L end
  | LBN l => forall f j, bn_rows f l -> (0 <= j < f)%Z -> Rabs (el (bn_gamma l) [0%Z; j] / sqrt (el (bn_rvar l) [0%Z; j] + bn_eps l)) <= L
  | LDrop l => if dr_train l then Rabs (1 / (1 - dr_rate l)) <= L else 1 <= L
  | LFlat _ | LPool _ => 1 <= L
  end.
(** For several layers the product. *)
Inductive gains : list (layer R) -> R -> Prop :=
  | ga_nil : gains [] 1
  | ga_cons : forall l ls L K, gain l L -> gains ls K -> gains (l :: ls) (L * K).
End S.
