(** * The network with its parameters at arbitrary addresses

    M_Net.v gives the two parameters of the layer at position [i] the addresses [2i] and [2i+1].  Here the address of parameter [k] is
    [addr k] for any function [addr]: where the allocator put the layer objects (Adam keys its state by the address of the tensor) or
    their buffers (SGD and RMSProp key it by the address of the data).  The definitions are otherwise those of M_Net.v. *)
From Verif Require Import Base Scalar Types M_Shape M_Tensor M_Adv M_Act M_Loss M_Layers M_Reg M_Opt M_Net.

Section At.
Context {T : Type} {S : Scalar T} {G : Type} {HR : Rng T G}.
Variable addr : Z -> Z.

(** SGDOptimizer.hpp:46-59, RMSPropOptimizer.hpp:48-80, AdamOptimizer.hpp:84-100: the keys. *)
Definition pair_optimize_at (o : optim T) (i : Z) (w b gw gb : tensor T) : optim T * tensor T * tensor T * outcome unit :=
  let kw := addr (2 * i) in
  let kb := addr (2 * i + 1) in
  let '(o', st, r) := optim_optimize o (fun k => if k =? kw then w else b) [kw; kb] [gw; gb] (s_z (-1)) in (o', st kw, st kb, r).
(** Layer.hpp:17, FullyConnectedLayer.hpp:90-97, Conv2DLayer.hpp:137-144, BatchNormalizationLayer.hpp:98-105 *)
Definition layer_update_at (i : Z) (l : layer T) (o : optim T) : layer T * optim T * outcome unit :=
  match l with
  | LFC l =>
      match fc_gw l, fc_gb l with
      | Some gw, Some gb =>
          let '(o', w, b, r) := pair_optimize_at o i (fc_w l) (fc_b l) gw gb in
          (LFC (mkFC w b (fc_in l) (fc_gw l) (fc_gb l)), o', r)
      | _, _ => (LFC l, o, Throw RuntimeError)
      end
  | LConv l =>
      match cv_gw l, cv_gb l with
      | Some gw, Some gb =>
          let '(o', w, b, r) := pair_optimize_at o i (cv_w l) (cv_b l) gw gb in
          (LConv (mkConv w b (cv_in l) (cv_gw l) (cv_gb l) (cv_ic l) (cv_oc l) (cv_kh l) (cv_kw l) (cv_stride l) (cv_pad l) (cv_dil l)), o', r)
      | _, _ => (LConv l, o, Throw RuntimeError)
      end
  | LBN l =>
      match bn_ggamma l, bn_gbeta l with
      | Some gw, Some gb =>
          let '(o', w, b, r) := pair_optimize_at o i (bn_gamma l) (bn_beta l) gw gb in
          (LBN (mkBN (bn_n l) (bn_eps l) (bn_mom l) w b (bn_rmean l) (bn_rvar l) (bn_mean l) (bn_var l) (bn_norm l) (bn_ggamma l) (bn_gbeta l) (bn_train l)), o', r)
      | _, _ => (LBN l, o, Throw RuntimeError)
      end
  | l => (l, o, Ok tt)
  end.
(** SmartDNN.impl.hpp:18-22 *)
Fixpoint update_all_at (i : Z) (ls : list (layer T)) (o : optim T) : list (layer T) * optim T * outcome unit :=
  match ls with
  | [] => ([], o, Ok tt)
  | l :: r =>
      match layer_update_at i l o with
      | (l', o', Ok _) => let '(r', o'', e) := update_all_at (i + 1) r o' in (l' :: r', o'', e)
      | (l', o', e) => (l' :: r, o', e)
      end
  end.
Definition net_update_at (n : net T G) : net T G * outcome unit :=
  match n_layers n, n_opt n with
  | [], _ => (n, Ok tt)
  | _, None => (n, UB)
  | ls, Some o => let '(ls', o', r) := update_all_at 0 ls o in (mkNet ls' (n_loss n) (Some o') (n_rng n), r)
  end.
(** Lines 36-46 *)
Definition train_sample_at (n : net T G) (x : tensor T) (t : outcome (tensor T)) (total : tensor T) : net T G * outcome (tensor T) :=
  let '(n1, o) := net_predict n x in
  step n1 o (fun p =>
  match n_loss n with
  | None => (n1, UB)
  | Some l =>
      step n1 (t <- t ;;
               c <- loss_compute l p t ;;
               total <- (let '(total', r) := t_binop_ip s_add false total c in _ <- r ;; Ok total') ;;
               d <- loss_gradient l p t ;; Ok (total, d)) (fun q =>
      let (total, d) := q in
      let '(n2, r) := net_backward n1 d in
      step n2 r (fun _ => let '(n3, r) := net_update_at n2 in step n3 r (fun _ => (n3, Ok total))))
  end).
(** Lines 35-46 *)
Fixpoint train_samples_at (n : net T G) (xs ts : list (tensor T)) (i : Z) (total : tensor T) : net T G * outcome (tensor T) :=
  match xs with
  | [] => (n, Ok total)
  | x :: r => let '(n1, o) := train_sample_at n x (rd ts i) total in step n1 o (fun total => train_samples_at n1 r ts (i + 1) total)
  end.
(** Lines 31-47 *)
Definition train_epoch_at (n : net T G) (xs ts : list (tensor T)) : net T G * outcome unit :=
  step n (s <- new_shape [1] ;; Ok (t_fill s zero)) (fun total =>
  let '(n1, o) := train_samples_at n xs ts 0 total in
  step n1 o (fun total => step n1 (t_div_s total (s_z (Zlen xs))) (fun _ => (n1, Ok tt)))).
(** Lines 30-49 *)
Fixpoint train_epochs_at (n : net T G) (xs ts : list (tensor T)) (k : nat) : net T G * outcome unit :=
  match k with
  | O => (n, Ok tt)
  | Datatypes.S k => let '(n1, o) := train_epoch_at n xs ts in step n1 o (fun _ => train_epochs_at n1 xs ts k)
  end.
Definition net_train_at (n : net T G) (xs ts : list (tensor T)) (epochs : Z) : net T G * outcome unit := train_epochs_at n xs ts (Z.to_nat epochs).
End At.

(** ** A program using one network: a list of calls of its public functions, and what the caller sees of each (the output, success, or
    the failure).  The program goes on after an exception, as a C++ program that catches it may. *)
Section Run.
Context {T : Type} {S : Scalar T} {G : Type} {HR : Rng T G}.
Inductive call := CTrain (xs ts : list (tensor T)) (epochs : Z) | CPredict (x : tensor T) | CMode (training : bool).
Inductive seen := SDone (r : outcome unit) | SValue (r : outcome (tensor T)).
Definition do_call (train : net T G -> list (tensor T) -> list (tensor T) -> Z -> net T G * outcome unit) (n : net T G) (c : call) : net T G * seen :=
  match c with
  | CTrain xs ts e => let '(n', r) := train n xs ts e in (n', SDone r)
  | CPredict x => let '(n', r) := net_predict n x in (n', SValue r)
  | CMode m => (net_set_mode n m, SDone (Ok tt))
  end.
Fixpoint run_calls train (n : net T G) (cs : list call) : net T G * list seen :=
  match cs with
  | [] => (n, [])
  | c :: r => let '(n1, s) := do_call train n c in let '(n2, ss) := run_calls train n1 r in (n2, s :: ss)
  end.
End Run.
Arguments call : clear implicits.
Arguments seen : clear implicits.
