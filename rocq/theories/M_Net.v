(** * The network (smart_dnn/SmartDNN.hpp, smart_dnn/SmartDNN/SmartDNN.impl.hpp, smart_dnn/Layer.hpp)

    The class hierarchies Layer, Loss and Optimizer are modelled as closed choices of the classes in the library. *)
From Verif Require Import Base Scalar Types M_Shape M_Tensor M_Adv M_Act M_Loss M_Layers M_Reg M_Opt.

Section Net.
Context {T : Type} {S : Scalar T} {G : Type} {HR : Rng T G}.

(** ** Layer.hpp:10-22 *)
Inductive layer :=
  | LFC (l : fc T) | LAct (l : actl T) | LFlat (l : flatten) | LConv (l : conv T)
  | LPool (l : pool T) | LDrop (l : dropout T) | LBN (l : bn T).

Definition lift {A} (f : A -> layer) (g : G) (r : A * outcome (tensor T)) : layer * G * outcome (tensor T) := (f (fst r), g, snd r).
(** Line 14; only Dropout draws random numbers. *)
Definition layer_forward (l : layer) (x : tensor T) (g : G) : layer * G * outcome (tensor T) :=
  match l with
  | LFC l => lift LFC g (fc_forward l x)
  | LAct l => lift LAct g (act_forward l x)
  | LFlat l => lift LFlat g (flatten_forward l x)
  | LConv l => lift LConv g (conv_forward l x)
  | LPool l => lift LPool g (pool_forward l x)
  | LDrop l => let '(l', g', o) := dropout_forward l x g in (LDrop l', g', o)
  | LBN l => lift LBN g (bn_forward l x)
  end.
(** Line 15 *)
Definition layer_backward (l : layer) (d : tensor T) : layer * outcome (tensor T) :=
  match l with
  | LFC l => let '(l', o) := fc_backward l d in (LFC l', o)
  | LAct l => (LAct l, act_backward l d)
  | LFlat l => (LFlat l, flatten_backward l d)
  | LConv l => let '(l', o) := conv_backward l d in (LConv l', o)
  | LPool l => (LPool l, pool_backward l d)
  | LDrop l => (LDrop l, dropout_backward l d)
  | LBN l => let '(l', o) := bn_backward l d in (LBN l', o)
  end.
(** Line 18.  The flag is kept only for the two layers that read it. *)
Definition layer_set_mode (m : bool) (l : layer) : layer :=
  match l with
  | LDrop l => LDrop (dropout_set_mode l m)
  | LBN l => LBN (bn_set_mode l m)
  | l => l
  end.

(** ** Optimizer.hpp:10-20; the override is left at its default -1. *)
Inductive optim := OSGD (o : sgd T) | ORMS (o : rms T) | OAdam (o : adam T).
Definition optim_optimize (o : optim) (st : store T) (ks : list Z) (gs : list (tensor T)) (lro : T) : optim * store T * outcome unit :=
  match o with
  | OSGD o => let '(o', st', r) := sgd_optimize o st ks gs lro in (OSGD o', st', r)
  | ORMS o => let '(o', st', r) := rms_optimize o st ks gs lro in (ORMS o', st', r)
  | OAdam o => let '(o', st', r) := adam_optimize o st ks gs lro in (OAdam o', st', r)
  end.
(** The two parameters of the layer at position [i] have the addresses [2i] and [2i+1]. *)
Definition pair_store (i : Z) (w b : tensor T) : store T := fun k => if k =? 2 * i then w else b.
Definition pair_optimize (o : optim) (i : Z) (w b gw gb : tensor T) : optim * tensor T * tensor T * outcome unit :=
  let '(o', st, r) := optim_optimize o (pair_store i w b) [2 * i; 2 * i + 1] [gw; gb] (s_z (-1)) in (o', st (2 * i), st (2 * i + 1), r).
(** Layer.hpp:17, FullyConnectedLayer.hpp:90-97, Conv2DLayer.hpp:137-144, BatchNormalizationLayer.hpp:98-105 *)
Definition layer_update (i : Z) (l : layer) (o : optim) : layer * optim * outcome unit :=
  match l with
  | LFC l =>
      match fc_gw l, fc_gb l with
      | Some gw, Some gb =>
          let '(o', w, b, r) := pair_optimize o i (fc_w l) (fc_b l) gw gb in
          (LFC (mkFC w b (fc_in l) (fc_gw l) (fc_gb l)), o', r)
      | _, _ => (LFC l, o, Throw RuntimeError)
      end
  | LConv l =>
      match cv_gw l, cv_gb l with
      | Some gw, Some gb =>
          let '(o', w, b, r) := pair_optimize o i (cv_w l) (cv_b l) gw gb in
          (LConv (mkConv w b (cv_in l) (cv_gw l) (cv_gb l) (cv_ic l) (cv_oc l) (cv_kh l) (cv_kw l) (cv_stride l) (cv_pad l) (cv_dil l)), o', r)
      | _, _ => (LConv l, o, Throw RuntimeError)
      end
  | LBN l =>
      match bn_ggamma l, bn_gbeta l with
      | Some gw, Some gb =>
          let '(o', w, b, r) := pair_optimize o i (bn_gamma l) (bn_beta l) gw gb in
          (LBN (mkBN (bn_n l) (bn_eps l) (bn_mom l) w b (bn_rmean l) (bn_rvar l) (bn_mean l) (bn_var l) (bn_norm l) (bn_ggamma l) (bn_gbeta l) (bn_train l)), o', r)
      | _, _ => (LBN l, o, Throw RuntimeError)
      end
  | l => (l, o, Ok tt)
  end.

(** ** Passes over the layers *)
(** SmartDNN.impl.hpp:37-39, 54-56 *)
Fixpoint forward_all (ls : list layer) (x : tensor T) (g : G) : list layer * G * outcome (tensor T) :=
  match ls with
  | [] => ([], g, Ok x)
  | l :: r =>
      match layer_forward l x g with
      | (l', g', Ok y) => let '(r', g'', o) := forward_all r y g' in (l' :: r', g'', o)
      | (l', g', Throw e) => (l' :: r, g', Throw e) | (l', g', Abort) => (l' :: r, g', Abort)
      | (l', g', UB) => (l' :: r, g', UB) | (l', g', Hang) => (l' :: r, g', Hang)
      end
  end.
(** Lines 10-15: from the last layer to the first. *)
Fixpoint backward_all (ls : list layer) (d : tensor T) : list layer * outcome (tensor T) :=
  match ls with
  | [] => ([], Ok d)
  | l :: r =>
      match backward_all r d with
      | (r', Ok d') => let '(l', o) := layer_backward l d' in (l' :: r', o)
      | (r', o) => (l :: r', o)
      end
  end.
(** Lines 18-22 *)
Fixpoint update_all (i : Z) (ls : list layer) (o : optim) : list layer * optim * outcome unit :=
  match ls with
  | [] => ([], o, Ok tt)
  | l :: r =>
      match layer_update i l o with
      | (l', o', Ok _) => let '(r', o'', e) := update_all (i + 1) r o' in (l' :: r', o'', e)
      | (l', o', e) => (l' :: r, o', e)
      end
  end.

(** ** SmartDNN.hpp:14-53 *)
Record net := mkNet { n_layers : list layer; n_loss : option loss; n_opt : option optim; n_rng : G }.
Definition net_new (g : G) : net := mkNet [] None None g.
Definition net_add (n : net) (l : layer) : net := mkNet (n_layers n ++ [l]) (n_loss n) (n_opt n) (n_rng n).
Definition net_compile (n : net) (l : loss) (o : optim) : net := mkNet (n_layers n) (Some l) (Some o) (n_rng n).
Definition net_with (n : net) (ls : list layer) : net := mkNet ls (n_loss n) (n_opt n) (n_rng n).
(** SmartDNN.impl.hpp:25-27; unchecked. *)
Definition net_get (n : net) (i : Z) : outcome layer := rd (n_layers n) i.
(** Lines 52-58 *)
Definition net_predict (n : net) (x : tensor T) : net * outcome (tensor T) :=
  let '(ls, g, o) := forward_all (n_layers n) x (n_rng n) in (mkNet ls (n_loss n) (n_opt n) g, o).
(** Lines 61-68 *)
Fixpoint net_predict_all (n : net) (xs : list (tensor T)) : net * outcome (list (tensor T)) :=
  match xs with
  | [] => (n, Ok [])
  | x :: r => let '(n1, o) := net_predict n x in
              step n1 o (fun y => let '(n2, o2) := net_predict_all n1 r in step n2 o2 (fun ys => (n2, Ok (y :: ys))))
  end.
(** Lines 10-15 and 18-22; dereferencing a null optimizer is undefined, but only when there is a layer to pass it to. *)
Definition net_backward (n : net) (d : tensor T) : net * outcome unit :=
  let '(ls, o) := backward_all (n_layers n) d in step (net_with n ls) o (fun _ => (net_with n ls, Ok tt)).
Definition net_update (n : net) : net * outcome unit :=
  match n_layers n, n_opt n with
  | [], _ => (n, Ok tt)
  | _, None => (n, UB)
  | ls, Some o => let '(ls', o', r) := update_all 0 ls o in (mkNet ls' (n_loss n) (Some o') (n_rng n), r)
  end.
(** Lines 71-85 *)
Definition net_set_mode (n : net) (m : bool) : net := net_with n (map (layer_set_mode m) (n_layers n)).
(** Lines 36-46: one sample; [total] is the running loss.  Calls through the null loss are undefined. *)
Definition train_sample (n : net) (x : tensor T) (t : outcome (tensor T)) (total : tensor T) : net * outcome (tensor T) :=
  let '(n1, o) := net_predict n x in
  step n1 o (fun p =>
  match n_loss n with
  | None => (n1, UB)
  | Some l =>
      step n1 (t <- t ;;
               c <- loss_compute l p t ;;
               total <- (let '(total', r) := t_binop_ip s_add false total c in _ <- r ;; Ok total') ;;
               d <- loss_gradient l p t ;; Ok (total, d)) (fun q =>
      let (total, d) := q in
      let '(n2, r) := net_backward n1 d in
      step n2 r (fun _ => let '(n3, r) := net_update n2 in step n3 r (fun _ => (n3, Ok total))))
  end).
(** Lines 35-46 from sample [i] on; targets[i] is unchecked. *)
Fixpoint train_samples (n : net) (xs ts : list (tensor T)) (i : Z) (total : tensor T) : net * outcome (tensor T) :=
  match xs with
  | [] => (n, Ok total)
  | x :: r => let '(n1, o) := train_sample n x (rd ts i) total in step n1 o (fun total => train_samples n1 r ts (i + 1) total)
  end.
(** Lines 31-47: one epoch; the average loss is printed. *)
Definition train_epoch (n : net) (xs ts : list (tensor T)) : net * outcome unit :=
  step n (s <- new_shape [1] ;; Ok (t_fill s zero)) (fun total =>
  let '(n1, o) := train_samples n xs ts 0 total in
  step n1 o (fun total => step n1 (t_div_s total (s_z (Zlen xs))) (fun _ => (n1, Ok tt)))).
(** Lines 30-49 *)
Fixpoint train_epochs (n : net) (xs ts : list (tensor T)) (k : nat) : net * outcome unit :=
  match k with
  | O => (n, Ok tt)
  | Datatypes.S k => let '(n1, o) := train_epoch n xs ts in step n1 o (fun _ => train_epochs n1 xs ts k)
  end.
Definition net_train (n : net) (xs ts : list (tensor T)) (epochs : Z) : net * outcome unit := train_epochs n xs ts (Z.to_nat epochs).
End Net.
Arguments layer : clear implicits.
Arguments optim : clear implicits.
Arguments net : clear implicits.
