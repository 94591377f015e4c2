(** * Vocabulary for C147: the settings of a convolution *)
From Coq Require Import ZArith List.
From Verif Require Import Base Scalar Types Spec M_Tensor M_Act M_Loss M_Layers M_Reg M_Opt M_Net.
Import ListNotations.
Local Open Scope Z_scope.

Section S.
Context {T : Type} {S : Scalar T}.
(** The same convolution but for stride, padding and dilation, which may be anything. *)
Definition other_settings (l l' : conv T) : Prop :=
  exists stride pad dil, l' = mkConv (cv_w l) (cv_b l) (cv_in l) (cv_gw l) (cv_gb l) (cv_ic l) (cv_oc l) (cv_kh l) (cv_kw l) stride pad dil.
(** Two layers that are equal, or two convolutions equal but for these settings. *)
Definition same_layer (l l' : layer T) : Prop := l' = l \/ exists c c', l = LConv c /\ l' = LConv c' /\ other_settings c c'.
(** Two networks with such layers; loss, optimizer with its history, and random engine are equal. *)
Definition same_but_settings {G} (n n' : net T G) : Prop :=
  Forall2 same_layer (n_layers n) (n_layers n') /\ n_loss n' = n_loss n /\ n_opt n' = n_opt n /\ n_rng n' = n_rng n.
End S.
