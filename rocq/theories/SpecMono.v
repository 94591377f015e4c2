(** * Vocabulary for C140: networks that only add *)
From Coq Require Import Reals SpecFloat.
From Verif Require Import Base Scalar ScalarR Types Spec SpecNN SpecLayers SpecR SpecF32 M_Tensor M_Act M_Loss M_Layers M_Reg M_Opt M_Net SpecNet SpecFuse.
Local Open Scope R_scope.

Section S.
Context {S : Scalar R}.
(** Every element of [x'] is at least that of [x]. *)
Definition raised (x x' : tensor R) : Prop := good x' /\ tdims x' = tdims x /\ forall idx, in_range (tdims x) idx -> el x idx <= el x' idx.
(** A layer without negative weights, an activation that grows with its input, a layer that selects or copies. *)
Definition upward (l : layer R) : Prop :=
  match l with
  | LFC l => forall idx, in_range (tdims (fc_w l)) idx -> 0 <= el (fc_w l) idx
  | LConv l => forall idx, in_range (tdims (cv_w l)) idx -> 0 <= el (cv_w l) idx
  | LAct l => match al_act l with ReLU | Sigmoid | Tanh => True | LeakyReLU al => 0 <= al | Swish | Mish | Softmax => False end
  | LBN l => forall f j, bn_rows f l -> (0 <= j < f)%Z -> 0 <= el (bn_gamma l) [0%Z; j] /\ 0 < el (bn_rvar l) [0%Z; j] + bn_eps l
  | LDrop l => dr_rate l < 1
  | LFlat _ | LPool _ => True
  end.
(** Layers as the constructors make them, with ReLU, leaky ReLU (slope not negative), Sigmoid and Tanh activations. *)
Inductive fresh {G} {HR : Rng R G} : layer R -> Prop :=
  | fr_dense : forall k o g l g', (0 < k)%Z -> (0 < o)%Z -> (k * o <= INT_MAX)%Z -> fc_new k o g = Ok (l, g') -> fresh (LFC l)
  | fr_conv : forall ic oc kh kw s p d g l g', (0 < ic)%Z -> (0 < oc)%Z -> (0 < kh)%Z -> (0 < kw)%Z -> (oc * (ic * (kh * kw)) <= INT_MAX)%Z -> conv_new ic oc kh kw s p d g = Ok (l, g') -> fresh (LConv l)
  | fr_act : forall f, (f = ReLU \/ f = Sigmoid \/ f = Tanh \/ exists al, f = LeakyReLU al /\ 0 <= al) -> fresh (LAct (act_new f))
  | fr_flat : fresh (LFlat flatten_new)
  | fr_pool : forall size stride pad, fresh (LPool (pool_new size stride pad))
  | fr_drop : forall rate, rate < 1 -> fresh (LDrop (dropout_new rate)).
End S.

(** ** The same in float32 *)
Section F.
Variable lm : libm.
Local Notation el32 := (@el f32 (F32Scalar lm)).
Definition raised32 (x x' : tensor f32) : Prop := tdims x' = tdims x /\ forall idx, in_range (tdims x) idx -> f32_value (el32 x idx) <= f32_value (el32 x' idx).
(** What is asked of [expf]: a larger argument never gives a smaller result. *)
Definition exp_rises (e : f32 -> f32) : Prop := forall x y, f32_valid x -> f32_finite x -> f32_valid y -> f32_finite y -> f32_value x <= f32_value y ->
  f32_finite (e y) -> f32_finite (e x) /\ f32_value (e x) <= f32_value (e y).
Definition upward32 (l : layer f32) : Prop :=
  match l with
  | LFC l => forall idx, in_range (tdims (fc_w l)) idx -> 0 <= f32_value (el32 (fc_w l) idx)
  | LConv l => forall idx, in_range (tdims (cv_w l)) idx -> 0 <= f32_value (el32 (cv_w l) idx)
  | LAct l => match al_act l with ReLU => True | LeakyReLU al => 0 <= f32_value al | Sigmoid => exp_rises (m_exp lm) | Tanh | Swish | Mish | Softmax => False end
  | LBN l => forall f j, bn_rows f l -> (0 <= j < f)%Z -> 0 <= f32_value (el32 (bn_gamma l) [0%Z; j])
  | LFlat _ | LPool _ | LDrop _ => True
  end.
End F.
