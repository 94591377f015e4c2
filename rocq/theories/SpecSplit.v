(** * Specification: training in several calls (C121) *)
From Verif Require Import Base Scalar Types M_Tensor M_Loss M_Layers M_Reg M_Opt M_Net.

Section S.
Context {T : Type} {S : Scalar T} {G : Type} {HR : Rng T G}.
(** One call of train per sample. *)
Inductive one_by_one : net T G -> list (tensor T * tensor T) -> net T G -> Prop :=
  | obo_nil : forall n, one_by_one n [] n
  | obo_cons : forall n x t m r n', net_train n [x] [t] 1 = (m, Ok tt) -> one_by_one m r n' -> one_by_one n ((x, t) :: r) n'.
(** The networks agree in everything but the optimizer. *)
Definition same_but_optimizer (n m : net T G) : Prop := n_layers m = n_layers n /\ n_loss m = n_loss n /\ n_rng m = n_rng n.
End S.
