(** * Vocabulary for predicting batches (C107) *)
From Verif Require Import Base Scalar Types Spec SpecNN SpecLayers M_Tensor M_Act M_Loss M_Layers M_Reg M_Opt M_Net SpecNet.

Section S.
Context {T : Type} {S : Scalar T}.
(** The batch made of the rows of [x] with the numbers [sel], in that order; a number may occur several times. *)
Definition gather (sel : list Z) (x : tensor T) : tensor T :=
  tensor_of (Zlen sel :: tl (tdims x)) (fun idx => el x (znth 0 sel (hd 0 idx) :: tl idx)).
(** A layer in evaluation mode takes batches of shape [ds] to batches of shape [ds']. *)
Inductive evaluates : list Z -> layer T -> list Z -> Prop :=
  | ev_fc : forall n k o l, good (fc_w l) -> tdims (fc_w l) = [k; o] -> good (fc_b l) -> tdims (fc_b l) = [1; o] -> n * o <= INT_MAX ->
      evaluates [n; k] (LFC l) [n; o]
  | ev_act : forall ds l, (al_act l = Softmax -> (2 <= length ds)%nat) -> evaluates ds (LAct l) ds
  | ev_flat : forall b c ds l, evaluates (b :: c :: ds) (LFlat l) [b; prod (c :: ds)]
  | ev_conv : forall n h w l, good (cv_w l) -> tdims (cv_w l) = [cv_oc l; cv_ic l; cv_kh l; cv_kw l] -> good (cv_b l) -> tdims (cv_b l) = [cv_oc l; 1] ->
      cv_kh l <= h -> cv_kw l <= w -> n * (cv_oc l * ((h - cv_kh l + 1) * (w - cv_kw l + 1))) <= INT_MAX ->
      evaluates [n; cv_ic l; h; w] (LConv l) [n; cv_oc l; h - cv_kh l + 1; w - cv_kw l + 1]
  | ev_pool : forall n c h w l, po_pad l = 0 -> 0 < po_stride l -> 0 < po_size l -> po_size l <= h -> po_size l <= w ->
      evaluates [n; c; h; w] (LPool l) [n; c; pool_extent (po_size l) (po_stride l) h; pool_extent (po_size l) (po_stride l) w]
  | ev_drop : forall ds l, dr_train l = false -> evaluates ds (LDrop l) ds
  | ev_bn : forall f ds l, bn_rows f l -> bn_train l = false -> featured f ds -> evaluates ds (LBN l) ds.
Definition evaluates_all : list Z -> list (layer T) -> list Z -> Prop := stack evaluates.
(** Row numbers of a batch of [n] rows. *)
Definition rows_of (n : Z) (sel : list Z) : Prop := sel <> [] /\ Forall (fun i => 0 <= i < n) sel.
End S.

(** ** Gradients of a batch and of its rows (C109) *)
Section R.
Context {T : Type} {S : Scalar T} {G : Type} {HR : Rng T G}.
(** [n'] is [n] after predicting [x], taking the gradient of the loss at the targets [t] and propagating it back. *)
Definition gradients (n : net T G) (x t : tensor T) (n' : net T G) : Prop :=
  exists n1 p l d, net_predict n x = (n1, Ok p) /\ n_loss n = Some l /\ loss_gradient l p t = Ok d /\ net_backward n1 d = (n', Ok tt).
(** The weight and bias gradients stored in layer number [k]. *)
Definition grads_at (n : net T G) (k : nat) : option (tensor T * tensor T) := match nth_error (n_layers n) k with Some l => layer_grads l | None => None end.
Definition params_at (n : net T G) (k : nat) : option (tensor T * tensor T) := match nth_error (n_layers n) k with Some l => layer_params l | None => None end.
End R.
Definition is_conv {T} (l : layer T) : bool := match l with LConv _ => true | _ => false end.
