(** * Vocabulary for C103: every layer with an optimizer of its own *)
From Verif Require Import Base Scalar Types M_Shape M_Tensor M_Adv M_Act M_Loss M_Layers M_Reg M_Opt M_Net.

Section S.
Context {T : Type} {S : Scalar T} {G : Type} {HR : Rng T G}.

(** Layers that hold parameters; at most one of them in a list. *)
Definition parametric (l : layer T) : bool := match l with LFC _ | LConv _ | LBN _ => true | _ => false end.
Definition at_most_one (ls : list (layer T)) : Prop := (length (filter parametric ls) <= 1)%nat.
(** SGD or RMSProp. *)
Definition sgd_or_rms (o : optim T) : Prop := match o with OAdam _ => False | _ => True end.

(** Each layer is updated by the optimizer at its position, which never meets another layer. *)
Inductive own_updates : list (layer T) -> list (optim T) -> list (layer T) -> list (optim T) -> Prop :=
  | own_nil : own_updates [] [] [] []
  | own_cons : forall l o l' o' ls os ls' os', layer_update 0 l o = (l', o', Ok tt) -> own_updates ls os ls' os' -> own_updates (l :: ls) (o :: os) (l' :: ls') (o' :: os').
(** Training on one sample, and on a list of samples, with an optimizer per layer. *)
Definition fit_one_own (n : net T G) (os : list (optim T)) (x t : tensor T) (n' : net T G) (os' : list (optim T)) : Prop :=
  exists n1 n2 p c d l, net_predict n x = (n1, Ok p) /\ n_loss n = Some l /\ loss_compute l p t = Ok c /\ loss_gradient l p t = Ok d /\
    net_backward n1 d = (n2, Ok tt) /\ own_updates (n_layers n2) os (n_layers n') os' /\ n_loss n' = n_loss n2 /\ n_rng n' = n_rng n2.
Inductive fit_own : net T G -> list (optim T) -> list (tensor T * tensor T) -> net T G -> list (optim T) -> Prop :=
  | fit_own_nil : forall n os, fit_own n os [] n os
  | fit_own_cons : forall n os x t n1 os1 r n2 os2, fit_one_own n os x t n1 os1 -> fit_own n1 os1 r n2 os2 -> fit_own n os ((x, t) :: r) n2 os2.
(** The same layers and the same random state. *)
Definition same_model (n m : net T G) : Prop := n_layers n = n_layers m /\ n_rng n = n_rng m.
End S.
