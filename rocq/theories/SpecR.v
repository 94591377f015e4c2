(** * Specification vocabulary over the reals *)
From Coq Require Import Reals.
From Verif Require Import Base Types Spec Scalar ScalarR.
Local Open Scope R_scope.

(** Sum of a list; sum of [f] over a list; average of [f] over a list. *)
Fixpoint Rsum (l : list R) : R := match l with [] => 0 | x :: r => x + Rsum r end.
Definition rsum {A} (l : list A) (f : A -> R) : R := Rsum (map f l).
Definition ravg {A} (l : list A) (f : A -> R) : R := rsum l f / IZR (Zlen l).

(** ** Derivatives of tensor-valued functions *)
From Coquelicot Require Import Coquelicot.
From Verif Require Import M_Act.

(** Inner product of two tensors of the same shape. *)
Definition dot (a b : tensor R) : R := rsum (all_indices (tdims a)) (fun idx => el a idx * el b idx).

(** [X] is a path of tensors of shape [ds] whose velocity at [s] is [dX]. *)
Definition curve (ds : list Z) (X : R -> tensor R) (s : R) (dX : tensor R) : Prop :=
  (forall u, good (X u) /\ tdims (X u) = ds) /\ good dX /\ tdims dX = ds /\
  forall idx, in_range ds idx -> is_derive (fun u => el (X u) idx) s (el dX idx).

(** [bwd x g] is the gradient with respect to x of <g, fwd x>: along every path through x, the
    forward results form a path with some velocity dY, and <g, dY> = <bwd x g, dX>. *)
Definition is_gradient_on (ok : tensor R -> Prop) (ds ds' : list Z) (fwd : tensor R -> outcome (tensor R)) (bwd : tensor R -> tensor R -> outcome (tensor R)) : Prop :=
  forall X s dX, curve ds X s dX -> ok (X s) ->
  exists Y dY, (forall u, fwd (X u) = Ok (Y u)) /\ curve ds' Y s dY /\
    forall g, good g -> tdims g = ds' ->
      exists gx, bwd (X s) g = Ok gx /\ good gx /\ tdims gx = ds /\ dot g dY = dot gx dX.
Definition is_gradient := is_gradient_on (fun _ => True).

(** ** Activation functions *)
Definition sigmoidR (x : R) : R := 1 / (1 + exp (- x)).
(** The real function an element-wise activation stands for. *)
Definition act_fun (a : act R) (x : R) : R :=
  match a with
  | ReLU => Rmax 0 x
  | LeakyReLU alpha => if Rlt_dec 0 x then x else alpha * x
  | Sigmoid => sigmoidR x
  | Tanh => tanh x
  | Swish => x * sigmoidR x
  | Mish => x * tanh (ln (1 + exp x))
  | Softmax => x
  end.
(** Inputs at which the activation is differentiable: no zero element for ReLU and LeakyReLU. *)
Definition act_smooth_at (a : act R) (x : tensor R) : Prop :=
  match a with
  | ReLU | LeakyReLU _ => forall idx, in_range (tdims x) idx -> el x idx <> 0
  | _ => True
  end.

(** Sum of the values, each weighted by [mom] to the power of the number of later values. *)
Fixpoint weighted (mom : R) (l : list R) : R := match l with [] => 0 | x :: r => mom ^ length r * x + weighted mom r end.
