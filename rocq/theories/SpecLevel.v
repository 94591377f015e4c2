(** * Vocabulary for C142: networks without offsets *)
From Coq Require Import Reals.
From Verif Require Import Base Scalar ScalarR Types Spec SpecNN SpecLayers SpecR M_Tensor M_Act M_Loss M_Layers M_Reg M_Opt M_Net SpecNet.
Local Open Scope R_scope.

Section S.
Context {S : Scalar R}.
(** [x'] is [c] times [x]. *)
Definition scaled (c : R) (x x' : tensor R) : Prop := good x' /\ tdims x' = tdims x /\ forall idx, in_range (tdims x) idx -> el x' idx = c * el x idx.
Definition all_zero (t : tensor R) : Prop := forall idx, in_range (tdims t) idx -> el t idx = 0.
(** A stack of layers with biases 0, ReLU and leaky ReLU activations, dropout (rate below 1), flatten, and pooling where no value is negative: [pos] says that
    this is so for the input of the stack. *)
Inductive level : bool -> list (layer R) -> Prop :=
  | lv_nil : forall pos, level pos []
  | lv_dense : forall pos l ls, all_zero (fc_b l) -> level false ls -> level pos (LFC l :: ls)
  | lv_conv : forall pos l ls, all_zero (cv_b l) -> level false ls -> level pos (LConv l :: ls)
  | lv_relu : forall pos l ls, al_act l = ReLU -> level true ls -> level pos (LAct l :: ls)
  | lv_leaky : forall pos l ls al, al_act l = LeakyReLU al -> level false ls -> level pos (LAct l :: ls)
  | lv_flat : forall pos l ls, level pos ls -> level pos (LFlat l :: ls)
  | lv_drop : forall pos l ls, dr_rate l < 1 -> level pos ls -> level pos (LDrop l :: ls)
  | lv_pool : forall l ls, level true ls -> level true (LPool l :: ls).
(** The same with layers as the constructors make them. *)
Inductive new_level {G} {HR : Rng R G} : bool -> list (layer R) -> Prop :=
  | nl_nil : forall pos, new_level pos []
  | nl_dense : forall pos k o g l g' ls, (0 < k)%Z -> (0 < o)%Z -> (k * o <= INT_MAX)%Z -> fc_new k o g = Ok (l, g') -> new_level false ls -> new_level pos (LFC l :: ls)
  | nl_conv : forall pos ic oc kh kw s p d g l g' ls, (0 < ic)%Z -> (0 < oc)%Z -> (0 < kh)%Z -> (0 < kw)%Z -> (oc * (ic * (kh * kw)) <= INT_MAX)%Z -> conv_new ic oc kh kw s p d g = Ok (l, g') ->
      new_level false ls -> new_level pos (LConv l :: ls)
  | nl_relu : forall pos ls, new_level true ls -> new_level pos (LAct (act_new ReLU) :: ls)
  | nl_leaky : forall pos al ls, new_level false ls -> new_level pos (LAct (act_new (LeakyReLU al)) :: ls)
  | nl_flat : forall pos ls, new_level pos ls -> new_level pos (LFlat flatten_new :: ls)
  | nl_drop : forall pos rate ls, rate < 1 -> new_level pos ls -> new_level pos (LDrop (dropout_new rate) :: ls)
  | nl_pool : forall size stride pad ls, new_level true ls -> new_level true (LPool (pool_new size stride pad) :: ls).
End S.
