(** * Specification: training that fails at a sample (C119) *)
From Verif Require Import Base Scalar Types M_Tensor M_Loss M_Layers M_Reg M_Opt M_Net SpecNet.

Section S.
Context {T : Type} {S : Scalar T} {G : Type} {HR : Rng T G}.
(** Training on the sample (x, t) fails with outcome [o] and leaves the network [n']: in the forward pass, because the network
    has no loss function, in the loss or its gradient, in the backward pass, or in the update. *)
Inductive stopped (n : net T G) (x t : tensor T) : outcome unit -> net T G -> Prop :=
  | stop_predict : forall n' r, net_predict n x = (n', r) -> (forall p, r <> Ok p) -> stopped n x t (_ <- r ;; Ok tt) n'
  | stop_compile : forall n' p, net_predict n x = (n', Ok p) -> n_loss n = None -> stopped n x t UB n'
  | stop_loss : forall n' p l r, net_predict n x = (n', Ok p) -> n_loss n = Some l -> r = (_ <- loss_compute l p t ;; loss_gradient l p t) -> (forall d, r <> Ok d) ->
      stopped n x t (_ <- r ;; Ok tt) n'
  | stop_backward : forall n1 n' p l c d o, net_predict n x = (n1, Ok p) -> n_loss n = Some l -> loss_compute l p t = Ok c -> loss_gradient l p t = Ok d ->
      net_backward n1 d = (n', o) -> o <> Ok tt -> stopped n x t o n'
  | stop_update : forall n1 n2 n' p l c d o, net_predict n x = (n1, Ok p) -> n_loss n = Some l -> loss_compute l p t = Ok c -> loss_gradient l p t = Ok d ->
      net_backward n1 d = (n2, Ok tt) -> net_update n2 = (n', o) -> o <> Ok tt -> stopped n x t o n'.
End S.
