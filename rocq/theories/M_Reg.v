(** * Regularisation layers (smart_dnn/Regularisation/*.hpp) *)
From Verif Require Import Base Scalar Types M_Shape M_Tensor M_Adv M_Act M_Layers.

Section Reg.
Context {T : Type} {S : Scalar T}.

(** ** MaxPooling2DLayer.hpp *)
(** Lines 78-81 *)
Record pool := mkPool { po_size : Z; po_stride : Z; po_pad : Z; po_in : option (tensor T) }.
(** Lines 15-17 *)
Definition pool_new (size stride pad : Z) : pool := mkPool size stride pad None.
Definition pool_new1 (size : Z) : pool := pool_new size size 0.
(** Lines 83-107 findMaxInPoolWindow.  The two breaks end a loop at the first index outside the
    image; since the index grows by one per iteration this is the upper bound used here. *)
Definition find_max (l : pool) (x : tensor T) (n ic oh ow : Z) : outcome (T * Z * Z) :=
  p <- chk32 (oh * po_stride l) ;; ih0 <- chk32 (p - po_pad l) ;;
  p <- chk32 (ow * po_stride l) ;; iw0 <- chk32 (p - po_pad l) ;;
  h <- rd (tdims x) 2 ;;
  for_ 0 (Z.min (po_size l) (h - ih0)) (fun ph st =>
    w <- rd (tdims x) 3 ;;
    for_ 0 (Z.min (po_size l) (w - iw0)) (fun pw '(mx, mh, mw) =>
      let ih := ih0 + ph in let iw := iw0 + pw in
      v <- t_at x [n; ic; ih; iw] ;;
      Ok (if s_lt mx v then (v, ih, iw) else (mx, mh, mw))) st)
    (s_neg s_inf, 0, 0).
(** Lines 32-33: C++ division truncates; division by zero is undefined. *)
Definition pool_out (l : pool) (d : Z) : outcome Z :=
  a <- chk32 (d - po_size l) ;;
  if po_stride l =? 0 then UB else q <- chk32 (Z.quot a (po_stride l)) ;; chk32 (q + 1).
(** Lines 19-49 *)
Definition pool_forward (l : pool) (x : tensor T) : pool * outcome (tensor T) :=
  if negb (rank (tshape x) =? 4) then (l, Throw RuntimeError) else
  (mkPool (po_size l) (po_stride l) (po_pad l) (Some x),
   n <- rd (tdims x) 0 ;; c <- rd (tdims x) 1 ;; h <- rd (tdims x) 2 ;; w <- rd (tdims x) 3 ;;
   oh <- pool_out l h ;; ow <- pool_out l w ;;
   s <- new_shape [n; c; oh; ow] ;;
   for_ 0 n (fun b => for_ 0 c (fun k => for_ 0 oh (fun i => for_ 0 ow (fun j out =>
     ' (mx, _, _) <- find_max l x b k i j ;;
     t_at_set out [b; k; i; j] mx)))) (t_new s)).
(** Lines 51-75 *)
Definition pool_backward (l : pool) (g : tensor T) : outcome (tensor T) :=
  match po_in l with
  | None => Throw RuntimeError
  | Some x =>
      n <- rd (tdims x) 0 ;; c <- rd (tdims x) 1 ;; oh <- rd (tdims g) 2 ;; ow <- rd (tdims g) 3 ;;
      for_ 0 n (fun b => for_ 0 c (fun k => for_ 0 oh (fun i => for_ 0 ow (fun j gi =>
        ' (_, mh, mw) <- find_max l x b k i j ;;
        gv <- t_at g [b; k; i; j] ;;
        t_at_add gi [b; k; mh; mw] gv)))) (t_new (tshape x))
  end.

(** ** DropoutLayer.hpp *)
(** Lines 13, 36-37, Layer.hpp:18-21 *)
Record dropout := mkDrop { dr_rate : T; dr_mask : option (tensor T); dr_train : bool }.
Definition dropout_new (rate : T) : dropout := mkDrop rate None true.
Definition dropout_set_mode (l : dropout) (m : bool) : dropout := mkDrop (dr_rate l) (dr_mask l) m.
(** Lines 15-23; the engine is advanced by rand(). *)
Definition dropout_forward {G} `{Rng T G} (l : dropout) (x : tensor T) (g : G) : dropout * G * outcome (tensor T) :=
  if dr_train l then
    match f_rand (tdims x) g with
    | Ok (r, g') =>
        let l1 := mkDrop (dr_rate l) (Some r) true in
        let '(l2, o) := step l1 (t_apply r (fun v => if s_lt (dr_rate l) v then one else zero)) (fun m =>
          (mkDrop (dr_rate l) (Some m) true,
           p <- t_mul x m ;; t_mul_s p (s_div one (s_sub one (dr_rate l))))) in
        (l2, g', o)
    | Throw e => (l, g, Throw e) | Abort => (l, g, Abort) | UB => (l, g, UB) | Hang => (l, g, Hang)
    end
  else (l, g, Ok x).
(** Lines 25-33; comparing with an empty mask is undefined. *)
Definition dropout_backward (l : dropout) (g : tensor T) : outcome (tensor T) :=
  match dr_mask l with
  | None => UB
  | Some m => if negb (shape_eqb (tshape g) (tshape m)) then Throw InvalidArgument
              else if dr_train l then t_mul g m else Ok g
  end.

(** ** BatchNormalizationLayer.hpp *)
(** Lines 108-122 *)
Record bn := mkBN { bn_n : Z; bn_eps : T; bn_mom : T; bn_gamma : tensor T; bn_beta : tensor T;
  bn_rmean : tensor T; bn_rvar : tensor T; bn_mean : option (tensor T); bn_var : option (tensor T);
  bn_norm : option (tensor T); bn_ggamma : option (tensor T); bn_gbeta : option (tensor T); bn_train : bool }.
(** Lines 16-19 *)
Definition bn_new (n : Z) (eps mom : T) : outcome bn :=
  ga <- f_fill [1; n] one ;; be <- f_fill [1; n] zero ;; rm <- f_fill [1; n] zero ;; rv <- f_fill [1; n] one ;;
  Ok (mkBN n eps mom ga be rm rv None None None None None true).
Definition bn_set_mode (l : bn) (m : bool) : bn :=
  mkBN (bn_n l) (bn_eps l) (bn_mom l) (bn_gamma l) (bn_beta l) (bn_rmean l) (bn_rvar l) (bn_mean l) (bn_var l) (bn_norm l) (bn_ggamma l) (bn_gbeta l) m.
Definition bn_with_stats (l : bn) (rm rv : tensor T) : bn :=
  mkBN (bn_n l) (bn_eps l) (bn_mom l) (bn_gamma l) (bn_beta l) rm rv (bn_mean l) (bn_var l) (bn_norm l) (bn_ggamma l) (bn_gbeta l) (bn_train l).
Definition bn_with_batch (l : bn) (m v x : option (tensor T)) : bn :=
  mkBN (bn_n l) (bn_eps l) (bn_mom l) (bn_gamma l) (bn_beta l) (bn_rmean l) (bn_rvar l) m v x (bn_ggamma l) (bn_gbeta l) (bn_train l).
Definition bn_with_grads (l : bn) (dg db : tensor T) : bn :=
  mkBN (bn_n l) (bn_eps l) (bn_mom l) (bn_gamma l) (bn_beta l) (bn_rmean l) (bn_rvar l) (bn_mean l) (bn_var l) (bn_norm l) (Some dg) (Some db) (bn_train l).
(** Lines 124-135 reshapeForBroadcast; operator[] of the shape and of the vector are unchecked. *)
Definition bn_reshape (t : tensor T) (target : list Z) : outcome (tensor T) :=
  c <- rd (tdims t) 1 ;;
  ds <- wr (zrepeat 1 (Zlen target)) 1 c ;;
  reshape_to t ds.
(** Lines 28, 66 *)
Definition bn_axes (ds : list Z) : list Z := if Zlen ds =? 4 then [0; 2; 3] else [0].
(** (x - mean) / sqrt(var + eps), lines 40 and 53. *)
Definition bn_normalise (x m v : tensor T) (eps : T) : outcome (tensor T) :=
  d <- t_sub x m ;; ve <- t_add_s v eps ;; sd <- t_sqrt ve ;; t_div d sd.
(** momentum * running + (1 - momentum) * batch, lines 43-44. *)
Definition bn_ema (mom : T) (running batch : tensor T) : outcome (tensor T) :=
  a <- s_mul_t mom running ;; b <- s_mul_t (s_sub one mom) batch ;; t_add a b.
(** Lines 21-56 *)
Definition bn_forward (l : bn) (x : tensor T) : bn * outcome (tensor T) :=
  let r := rank (tshape x) in
  if negb (r =? 2) && negb (r =? 4) then (l, Throw RuntimeError) else
  if bn_train l then
    step l (t_mean_axes x (bn_axes (tdims x))) (fun m =>
    let l1 := bn_with_batch l (Some m) (bn_var l) (bn_norm l) in
    step l1 (t_variance_axes x m (bn_axes (tdims x))) (fun v =>
    let l2 := bn_with_batch l (Some m) (Some v) (bn_norm l) in
    step l2 (rm <- bn_reshape m (tdims x) ;; rv <- bn_reshape v (tdims x) ;;
             rg <- bn_reshape (bn_gamma l) (tdims x) ;; rb <- bn_reshape (bn_beta l) (tdims x) ;;
             nx <- bn_normalise x rm rv (bn_eps l) ;; Ok (rg, rb, nx)) (fun p =>
    let '(rg, rb, nx) := p in
    let l3 := bn_with_batch l (Some m) (Some v) (Some nx) in
    step l3 (y <- t_mul nx rg ;; y <- t_add y rb ;; rm <- bn_ema (bn_mom l) (bn_rmean l) m ;; Ok (y, rm)) (fun p =>
    let '(y, rm) := p in
    let l4 := bn_with_stats l3 rm (bn_rvar l) in
    step l4 (bn_ema (bn_mom l) (bn_rvar l) v) (fun rv =>
    (bn_with_stats l3 rm rv, Ok y))))))
  else
    (l, rm <- bn_reshape (bn_rmean l) (tdims x) ;; rv <- bn_reshape (bn_rvar l) (tdims x) ;;
        rg <- bn_reshape (bn_gamma l) (tdims x) ;; rb <- bn_reshape (bn_beta l) (tdims x) ;;
        nx <- bn_normalise x rm rv (bn_eps l) ;; y <- t_mul nx rg ;; t_add y rb).
(** Lines 58-96 *)
Definition bn_backward (l : bn) (g : tensor T) : bn * outcome (tensor T) :=
  match bn_mean l, bn_var l, bn_norm l with
  | Some _, Some v, Some nx =>
      let ds := tdims g in
      step l (
        b <- rd ds 0 ;;
        rg <- bn_reshape (bn_gamma l) ds ;;
        gn <- t_mul g nx ;; dgamma <- t_sum_axes gn (bn_axes ds) ;;
        dbeta <- t_sum_axes g (bn_axes ds) ;;
        dn <- t_mul g rg ;;
        ve <- t_add_s v (bn_eps l) ;; vr <- bn_reshape ve ds ;; sd <- t_sqrt vr ;; inv <- t_reciprocal (s_lit 1 1000000000000) sd ;;
        dnn <- t_mul dn nx ;; dv <- t_sum_axes dnn (bn_axes ds) ;;
        dv <- bn_reshape dv (tdims inv) ;;
        dv <- t_mul_s dv (s_lit (-1) 2) ;; dv <- t_mul dv inv ;; dv <- t_mul dv inv ;; dv <- t_mul dv inv ;;
        dv <- bn_reshape dv ds ;;
        di <- t_mul dn inv ;; dim <- t_mul_s di (s_z (-1)) ;; dm <- t_sum_axes dim (bn_axes ds) ;; dm <- bn_reshape dm ds ;;
        t1 <- t_mul dn inv ;;
        t2 <- t_mul_s dv (s_z 2) ;; t2 <- t_mul t2 nx ;; t2 <- t_div_s t2 (s_z b) ;;
        t3 <- t_div_s dm (s_z b) ;;
        a <- t_add t1 t2 ;; dx <- t_add a t3 ;;
        Ok (dgamma, dbeta, dx)) (fun p =>
      let '(dgamma, dbeta, dx) := p in (bn_with_grads l dgamma dbeta, Ok dx))
  | _, _, _ => (l, Throw RuntimeError)
  end.

(** A sequence of calls, each selecting the mode ([true] for training) and running forward; results are dropped. *)
Definition bn_call (l : bn) (e : bool * tensor T) : bn := fst (bn_forward (bn_set_mode l (fst e)) (snd e)).
Definition bn_run (l : bn) (es : list (bool * tensor T)) : bn := fold_left bn_call es l.

End Reg.
Arguments pool : clear implicits.
Arguments dropout : clear implicits.
Arguments bn : clear implicits.
