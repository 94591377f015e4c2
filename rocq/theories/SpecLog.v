(** * Specification vocabulary for the training report *)
From Coq Require Import ZArith Ascii String.
From Verif Require Import Base Scalar Types TextBase Spec SpecNN M_Shape M_Tensor M_Adv M_Act M_Loss M_Layers M_Reg M_Opt M_Net SpecNet.
Local Open Scope string_scope.

Section S.
Context {T : Type} {S : Scalar T} {G : Type} {HR : Rng T G}.

(** Training on one sample whose loss, computed from the prediction before the update, is [v]. *)
Definition fit_one_loss (n : net T G) (x t : tensor T) (v : T) (n' : net T G) : Prop :=
  exists n1 n2 p c d l, net_predict n x = (n1, Ok p) /\ n_loss n = Some l /\ loss_compute l p t = Ok c /\ el c [0%Z] = v /\ loss_gradient l p t = Ok d /\
    net_backward n1 d = (n2, Ok tt) /\ net_update n2 = (n', Ok tt).
(** One epoch: the samples in order and their losses. *)
Inductive fit_losses : net T G -> list (tensor T * tensor T) -> list T -> net T G -> Prop :=
  | fl_nil : forall n, fit_losses n [] [] n
  | fl_cons : forall n x t v n1 r vs n2, fit_one_loss n x t v n1 -> fit_losses n1 r vs n2 -> fit_losses n ((x, t) :: r) (v :: vs) n2.
(** Several epochs over the same samples. *)
Inductive fit_epochs (samples : list (tensor T * tensor T)) : net T G -> list (list T) -> net T G -> Prop :=
  | fe_nil : forall n, fit_epochs samples n [] n
  | fe_cons : forall n vs n1 r n2, fit_losses n samples vs n1 -> fit_epochs samples n1 r n2 -> fit_epochs samples n (vs :: r) n2.

(** The average of the losses of an epoch. *)
Definition average (vs : list T) : T := s_div (fsum vs) (s_z (Zlen vs)).
(** The line for epoch [e], and the lines for the averages [vs] of the epochs [e], [e + 1], ... *)
Definition epoch_line (show : T -> string) (e : Z) (v : T) : string := "Epoch " ++ show_int e ++ " - Loss: [" ++ show v ++ "]" ++ nl.
Fixpoint report_from (show : T -> string) (e : Z) (vs : list T) : string :=
  match vs with [] => "" | v :: r => epoch_line show e v ++ report_from show (e + 1)%Z r end.
End S.

(** The loss of the prediction for [x] against [t]. *)
Definition loss_of {T} {S : Scalar T} {G} {HR : Rng T G} (n : net T G) (x t : tensor T) (v : T) : Prop :=
  exists n' p l c, net_predict n x = (n', Ok p) /\ n_loss n = Some l /\ loss_compute l p t = Ok c /\ el c [0%Z] = v.
