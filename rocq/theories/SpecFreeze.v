(** * Vocabulary for C141: optimizers that cannot move a weight *)
From Coq Require Import Reals.
From Verif Require Import Base Scalar ScalarR Types M_Opt M_Net.
Local Open Scope R_scope.

(** The optimizer was given the learning rate 0; all other options are free. *)
Definition rate_zero (o : optim R) : Prop :=
  match o with OSGD o => sg_lr o = 0 | ORMS o => rp_lr o = 0 | OAdam o => ad_init o = 0 end.
