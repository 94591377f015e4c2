(** * Vocabulary for training a classifier with Softmax outputs and categorical cross-entropy (C106) *)
From Coq Require Import Reals.
From Verif Require Import Base Scalar ScalarR Types Spec SpecR M_Tensor M_Act M_Loss M_Layers M_Opt M_Net.
Local Open Scope R_scope.

(** One fully connected layer followed by Softmax, compiled with categorical cross-entropy and plain SGD. *)
Definition classifier {G} (l : fc R) (lr damp : R) (nest : bool) (g : G) : net R G :=
  mkNet [LFC l; LAct (act_new Softmax)] (Some CCE) (Some (OSGD (sgd_new lr 0 damp 0 nest))) g.
(** The cross-entropy of the prediction for [x] against [t]. *)
Definition cce_of {G} {HR : Rng R G} (n : net R G) (x t : tensor R) (v : R) : Prop :=
  exists n1 p, net_predict n x = (n1, Ok p) /\ cce_compute p t = Ok (tensor_of [1%Z] (fun _ => v)).
(** [N] rows over [c] classes, each summing to one. *)
Definition distributions (N c : Z) (t : tensor R) : Prop :=
  good t /\ tdims t = [N; c] /\ forall i, (0 <= i < N)%Z -> rsum (zrange 0 c) (fun j => el t [i; j]) = 1.
(** Every probability lies strictly inside the range to which the loss limits it. *)
Definition unclamped (p : tensor R) : Prop := forall idx, in_range (tdims p) idx -> 1 / 10000000 < el p idx < 1 - 1 / 10000000.
(** How far one plain SGD step moves the outputs of a fully connected layer, per unit of learning rate,
    when the signal arriving from above is [d]. *)
Definition shift (N k c : Z) (x d : tensor R) : tensor R :=
  tensor_of [N; c] (fun idx => rsum (zrange 0 N) (fun m => (rsum (zrange 0 k) (fun q => el x [nth 0 idx 0%Z; q] * el x [m; q]) + 1) * el d [m; nth 1 idx 0%Z])).
