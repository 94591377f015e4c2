(** * Networks with batch normalisation in training mode *)
From Verif Require Import Base Scalar Types Spec SpecNN SpecLayers M_Shape M_Tensor M_Adv M_Act M_Loss M_Layers M_Reg M_Opt M_Net SpecNet.

Section S.
Context {T : Type} {S : Scalar T}.
(** Forward passes of a network that may contain batch normalisation in training mode, for [f] features in rows of width [f]
    or images with [f] channels. *)
Inductive forwards : list Z -> layer T -> list Z -> Prop :=
  | fwd_layer : forall ds l ds', accepts ds l ds' -> forwards ds l ds'
  | fwd_bn : forall f ds l, bn_rows f l -> bn_train l = true -> featured f ds -> f * f <= INT_MAX -> forwards ds (LBN l) ds.
Definition is_bn (l : layer T) : Prop := match l with LBN _ => True | _ => False end.
End S.
(** An Adam optimizer as the examples ask for: rate [lr], decay rates 0.9 and 0.999, epsilon 1e-8, no L1 or L2 term, no decay of the
    rate, batches of one; nothing done so far. *)
Definition usual_adam {T} {S : Scalar T} (lr : T) (o : adam T) : Prop :=
  ad_init o = lr /\ ad_lr o = lr /\ ad_b1 o = s_lit 9 10 /\ ad_b2 o = s_lit 999 1000 /\ ad_eps o = s_lit 1 100000000 /\
  ad_l1 o = zero /\ ad_l2 o = zero /\ ad_decay o = zero /\ ad_it o = 0%Z /\ ad_batch o = 1%Z /\ (forall a, ad_m o a = None /\ ad_v o a = None).
