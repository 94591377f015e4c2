(** * Losses (smart_dnn/Loss/*.hpp) *)
From Verif Require Import Base Scalar Types M_Shape M_Tensor M_Adv.

Section Loss.
Context {T : Type} {S : Scalar T}.

(** MSELoss.hpp:18-26 and 34-42: the target in the prediction's shape. *)
Definition mse_align (p t : tensor T) : outcome (tensor T) :=
  if shape_eqb (tshape p) (tshape t) then Ok t
  else if rank (tshape t) =? 1 then
    t0 <- rd (tdims t) 0 ;; p0 <- rd (tdims p) 0 ;;
    if t0 =? p0 then t_reshape t (tdims p) else Throw InvalidArgument
  else Throw InvalidArgument.
(** MSELoss.hpp:17-31; the element count is converted to T before the division. *)
Definition mse_compute (p t : tensor T) : outcome (tensor T) :=
  rt <- mse_align p t ;;
  d <- t_sub p rt ;;
  sq <- t_mul d d ;;
  s <- t_sum sq ;;
  t_div_s s (s_z (ssize (tshape d))).
(** MSELoss.hpp:33-46 *)
Definition mse_gradient (p t : tensor T) : outcome (tensor T) :=
  rt <- mse_align p t ;;
  d <- t_sub p rt ;;
  m <- s_mul_t (s_z 2) d ;;
  t_div_s m (s_z (ssize (tshape p))).

(** CategoricalCrossEntropyLoss.hpp:15, 35, 63: epsilon and the clamp. *)
Definition cce_eps : T := s_lit 1 10000000.
Definition cce_clamp (v : T) : T := s_min (s_max v cce_eps) (s_sub one cce_eps).
(** CategoricalCrossEntropyLoss.hpp:25-42 *)
Definition cce_compute (p t : tensor T) : outcome (tensor T) :=
  if negb (shape_eqb (tshape p) (tshape t)) then Throw InvalidArgument else
  bs <- rd (tdims p) 0 ;;
  nc <- rd (tdims p) 1 ;;
  loss <- for_ 0 bs (fun i => for_ 0 nc (fun j loss =>
            pv <- t_at p [i; j] ;; tv <- t_at t [i; j] ;;
            Ok (s_sub loss (s_mul tv (s_log (cce_clamp pv)))))) zero ;;
  s <- new_shape [1] ;;
  Ok (t_fill s (s_div loss (s_z bs))).
(** CategoricalCrossEntropyLoss.hpp:51-71 *)
Definition cce_gradient (p t : tensor T) : outcome (tensor T) :=
  if negb (shape_eqb (tshape p) (tshape t)) then Throw InvalidArgument else
  bs <- rd (tdims p) 0 ;;
  nc <- rd (tdims p) 1 ;;
  gr <- for_ 0 bs (fun i => for_ 0 nc (fun j gr =>
            pv <- t_at p [i; j] ;; tv <- t_at t [i; j] ;;
            t_at_set gr [i; j] (s_sub (cce_clamp pv) tv))) (t_new (tshape p)) ;;
  t_div_s gr (s_z bs).

(** The Loss interface (Loss.hpp:8-22) as a closed choice. *)
Inductive loss := MSE | CCE.
Definition loss_compute (l : loss) := match l with MSE => mse_compute | CCE => cce_compute end.
Definition loss_gradient (l : loss) := match l with MSE => mse_gradient | CCE => cce_gradient end.
End Loss.
