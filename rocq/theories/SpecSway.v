(** * Vocabulary for C139: how far a change of the weights can carry *)
From Coq Require Import Reals.
From Verif Require Import Base Scalar ScalarR Types Spec SpecNN SpecLayers SpecR M_Tensor M_Act M_Loss M_Layers M_Reg M_Opt M_Net SpecNet SpecFuse SpecRobust.
Local Open Scope R_scope.

Section S.
Context {S : Scalar R}.
(** The same layer, with weights and biases that differ by at most [d]. *)
Definition altered (d : R) (l l' : layer R) : Prop :=
  match l, l' with
  | LFC l, LFC l' => near d (fc_w l) (fc_w l') /\ near d (fc_b l) (fc_b l')
  | LConv l, LConv l' => near d (cv_w l) (cv_w l') /\ near d (cv_b l) (cv_b l') /\ cv_ic l' = cv_ic l /\ cv_oc l' = cv_oc l /\ cv_kh l' = cv_kh l /\ cv_kw l' = cv_kw l
  | _, _ => l' = l
  end.
(** All elements are at most [M] in size. *)
Definition within (M : R) (x : tensor R) : Prop := forall idx, in_range (tdims x) idx -> Rabs (el x idx) <= M.
(** Inputs of at most [M] give outputs of at most [M']. *)
Definition sized (l : layer R) (M M' : R) : Prop :=
  match l with
  | LFC l => forall k o j, tdims (fc_w l) = [k; o] -> (0 <= j < o)%Z -> rsum (zrange 0 k) (fun i => Rabs (el (fc_w l) [i; j])) * M + Rabs (el (fc_b l) [0%Z; j]) <= M'
  | LConv l => forall o, (0 <= o < cv_oc l)%Z -> rsum (all_indices [cv_kh l; cv_kw l]) (fun k => Rabs (el (cv_w l) (o :: 0%Z :: k))) * M + Rabs (el (cv_b l) [o; 0%Z]) <= M'
  | LAct l => match al_act l with ReLU | Swish | Mish => M <= M' | LeakyReLU al => M <= M' /\ Rabs al * M <= M' | Sigmoid | Tanh | Softmax => 1 <= M' end
  | LBN l => forall f j, bn_rows f l -> (0 <= j < f)%Z ->
      Rabs (el (bn_gamma l) [0%Z; j] / sqrt (el (bn_rvar l) [0%Z; j] + bn_eps l)) * (M + Rabs (el (bn_rmean l) [0%Z; j])) + Rabs (el (bn_beta l) [0%Z; j]) <= M'
  | LDrop l => 0 <= M' /\ if dr_train l then Rabs (1 / (1 - dr_rate l)) * M <= M' else M <= M'
  | LFlat _ | LPool _ => M <= M'
  end.
(** What a change of at most [d] of the weights adds, on inputs of at most [s]: that many weights lead to each output, and one bias. *)
Definition sway (d s : R) (l : layer R) : R :=
  match l with
  | LFC l => match tdims (fc_w l) with k :: _ => d * (IZR k * s + 1) | [] => 0 end
  | LConv l => d * (IZR (cv_kh l * cv_kw l) * s + 1)
  | _ => 0
  end.
(** Layer by layer: the bound on the elements, and the bound on their change. *)
Inductive sways (d : R) : R -> R -> list (layer R) -> R -> R -> Prop :=
  | sw_nil : forall M E, sways d M E [] M E
  | sw_cons : forall M E l ls L M1 M2 E2, gain l L -> sized l M M1 -> sways d M1 (L * E + sway d (M + E) l) ls M2 E2 -> sways d M E (l :: ls) M2 E2.
End S.
