(** * Vocabulary for C143: networks in which ReLU does nothing *)
From Coq Require Import Reals SpecFloat.
From Verif Require Import Base Scalar ScalarR Types Spec SpecNN SpecLayers SpecR SpecF32 M_Tensor M_Act M_Loss M_Layers M_Reg M_Opt M_Net SpecNet SpecLevel SpecMono.
Local Open Scope R_scope.

Section S.
Context {S : Scalar R}.
Definition no_minus (t : tensor R) : Prop := forall idx, in_range (tdims t) idx -> 0 <= el t idx.
(** A ReLU or leaky ReLU layer. *)
Definition rectifier (l : layer R) : bool := match l with LAct a => match al_act a with ReLU | LeakyReLU _ => true | _ => false end | _ => false end.
(** The layers of a network without its ReLU and leaky ReLU layers. *)
Definition unrectified (ls : list (layer R)) : list (layer R) := filter (fun l => negb (rectifier l)) ls.
(** A layer without negative weights and biases, any activation, dropout (rate below 1), flatten, pooling. *)
Definition unsigned (l : layer R) : Prop :=
  match l with
  | LFC l => no_minus (fc_w l) /\ no_minus (fc_b l)
  | LConv l => no_minus (cv_w l) /\ no_minus (cv_b l)
  | LAct _ | LFlat _ | LPool _ => True
  | LDrop l => dr_rate l < 1
  | LBN _ => False
  end.
(** A layer with biases 0 and no activation: dense, convolution, flatten, dropout. *)
Definition linear (l : layer R) : Prop :=
  match l with
  | LFC l => all_zero (fc_b l)
  | LConv l => all_zero (cv_b l)
  | LFlat _ | LDrop _ => True
  | LAct _ | LPool _ | LBN _ => False
  end.
(** [z] is [a] times [x] plus [b] times [x']. *)
Definition mixture (a b : R) (x x' z : tensor R) : Prop :=
  good z /\ tdims x' = tdims x /\ tdims z = tdims x /\ forall idx, in_range (tdims x) idx -> el z idx = a * el x idx + b * el x' idx.
(** Layers as the constructors make them: the biases are 0 and the weights drawn; [pool] says whether pooling and the activations other than ReLU and leaky ReLU are
    among them. *)
Inductive new_layer {G} {HR : Rng R G} (pool : bool) : layer R -> Prop :=
  | nw_dense : forall k o g l g', (0 < k)%Z -> (0 < o)%Z -> (k * o <= INT_MAX)%Z -> fc_new k o g = Ok (l, g') -> new_layer pool (LFC l)
  | nw_conv : forall ic oc kh kw s p d g l g', (0 < ic)%Z -> (0 < oc)%Z -> (0 < kh)%Z -> (0 < kw)%Z -> (oc * (ic * (kh * kw)) <= INT_MAX)%Z -> conv_new ic oc kh kw s p d g = Ok (l, g') -> new_layer pool (LConv l)
  | nw_relu : new_layer pool (LAct (act_new ReLU))
  | nw_leaky : forall al, new_layer pool (LAct (act_new (LeakyReLU al)))
  | nw_act : forall f, pool = true -> new_layer pool (LAct (act_new f))
  | nw_flat : new_layer pool (LFlat flatten_new)
  | nw_drop : forall rate, rate < 1 -> new_layer pool (LDrop (dropout_new rate))
  | nw_pool : forall size stride pad, pool = true -> new_layer pool (LPool (pool_new size stride pad)).
End S.

(** ** The same in float32 *)
Section F.
Variable lm : libm.
Local Notation el32 := (@el f32 (F32Scalar lm)).
Definition no_minus32 (t : tensor f32) : Prop := forall idx, in_range (tdims t) idx -> 0 <= f32_value (el32 t idx).
(** The same numbers (0 and -0 count as the same). *)
Definition same32 (x x' : tensor f32) : Prop := tdims x' = tdims x /\ forall idx, in_range (tdims x) idx -> f32_value (el32 x' idx) = f32_value (el32 x idx).
Definition rectifier32 (l : layer f32) : bool := match l with LAct a => match al_act a with ReLU | LeakyReLU _ => true | _ => false end | _ => false end.
Definition unrectified32 (ls : list (layer f32)) : list (layer f32) := filter (fun l => negb (rectifier32 l)) ls.
Definition unsigned32 (l : layer f32) : Prop :=
  match l with
  | LFC l => no_minus32 (fc_w l) /\ no_minus32 (fc_b l)
  | LConv l => no_minus32 (cv_w l) /\ no_minus32 (cv_b l)
  | LAct l => match al_act l with ReLU | LeakyReLU _ => True | Sigmoid => exp_rises (m_exp lm) | Tanh | Swish | Mish | Softmax => False end
  | LFlat _ | LPool _ | LDrop _ => True
  | LBN _ => False
  end.
End F.
