(** * Specification: what layers remember, and a network used for predictions (C113, C114) *)
From Verif Require Import Base Scalar Types M_Tensor M_Layers M_Reg M_Net SpecNet.

Section S.
Context {T : Type} {S : Scalar T} {G : Type} {HR : Rng T G}.
(** A layer without the gradients it has stored: everything else, parameters and remembered inputs included. *)
Definition without_grads (l : layer T) : layer T :=
  match l with
  | LFC l => LFC (mkFC (fc_w l) (fc_b l) (fc_in l) None None)
  | LConv l => LConv (mkConv (cv_w l) (cv_b l) (cv_in l) None None (cv_ic l) (cv_oc l) (cv_kh l) (cv_kw l) (cv_stride l) (cv_pad l) (cv_dil l))
  | LBN l => LBN (mkBN (bn_n l) (bn_eps l) (bn_mom l) (bn_gamma l) (bn_beta l) (bn_rmean l) (bn_rvar l) (bn_mean l) (bn_var l) (bn_norm l) None None (bn_train l))
  | l => l
  end.
(** The network with no remembered inputs. *)
Definition unseen (n : net T G) : net T G := net_with n (map without_input (n_layers n)).
Definition no_flatten (n : net T G) : Prop := Forall (fun l => match l with LFlat _ => False | _ => True end) (n_layers n).
(** evalMode(), then predict() on each input; an exception ends only the prediction it occurs in. *)
Definition evaluated (n : net T G) (xs : list (tensor T)) : net T G := fold_left (fun m x => fst (net_predict m x)) xs (net_set_mode n false).
End S.
