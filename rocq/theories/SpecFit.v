(** * Vocabulary for training a network that already fits its data *)
From Coq Require Import Reals.
From Verif Require Import Base Scalar ScalarR Types Spec M_Shape M_Tensor M_Adv M_Act M_Loss M_Layers M_Reg M_Opt M_Net SpecNet.
Local Open Scope Z_scope.

(** Optimizers as constructed, without weight decay or penalties, and with settings for which no step divides by zero. *)
Inductive no_penalty : optim R -> Prop :=
  | np_sgd : forall lr mom damp nest, no_penalty (OSGD (sgd_new lr mom damp 0%R nest))
  | np_rms : forall lr al eps mom cent, (0 < eps)%R -> no_penalty (ORMS (rms_new lr al eps mom cent 0%R))
  | np_adam : forall lr b1 b2 eps decay batch, (0 <= b1 < 1)%R -> (0 <= b2 < 1)%R -> (0 < eps)%R -> (0 <= decay)%R -> 0 < batch ->
      no_penalty (OAdam (adam_new lr b1 b2 eps 0%R 0%R decay batch)).
(** Targets at which the gradient of the loss vanishes: any for the mean squared error; for the cross-entropy, which clamps
    predictions to this range, numbers between 10^-7 and 1 - 10^-7. *)
Definition at_rest (lo : loss) (t : tensor R) : Prop :=
  match lo with
  | MSE => True
  | CCE => length (tdims t) = 2%nat /\ forall idx, in_range (tdims t) idx -> (1 / 10000000 <= el t idx <= 1 - 1 / 10000000)%R
  end.
