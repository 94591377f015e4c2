(** * Layers (smart_dnn/Layers/*.hpp)

    A method that changes its object is a function to (object after the call, outcome).
    [step] runs a computation without effect on the object. *)
From Verif Require Import Base Scalar Types M_Shape M_Tensor M_Adv M_Act.

Definition step {St A B} (s : St) (m : outcome A) (k : A -> St * outcome B) : St * outcome B :=
  match m with
  | Ok a => k a | Throw e => (s, Throw e) | Abort => (s, Abort) | UB => (s, UB) | Hang => (s, Hang)
  end.

Section Layers.
Context {T : Type} {S : Scalar T}.

(** AdvancedTensorOperations::reshape (lines 190-194) with a Shape built from a brace list. *)
Definition reshape_to (t : tensor T) (ds : list Z) : outcome (tensor T) :=
  s <- new_shape ds ;; t_reshape t (dims s).
(** FullyConnectedLayer.hpp:35-37, 64-65, 69-71: a vector becomes one row. *)
Definition as_row (t : tensor T) : outcome (tensor T) :=
  if rank (tshape t) =? 1 then d <- rd (tdims t) 0 ;; reshape_to t [1; d] else Ok t.

(** ** FullyConnectedLayer.hpp *)
(** Lines 138-143.  Weights and biases are set by the constructor and never reset. *)
Record fc := mkFC { fc_w : tensor T; fc_b : tensor T; fc_in : option (tensor T);
                    fc_gw : option (tensor T); fc_gb : option (tensor T) }.
(** Lines 16-19 *)
Definition fc_new {G} `{Rng T G} (n_in n_out : Z) (g : G) : outcome (fc * G) :=
  ' (w, g') <- f_rand [n_in; n_out] g ;;
  b <- f_zeros [1; n_out] ;;
  Ok (mkFC w b None None None, g').
(** Lines 32-45 *)
Definition fc_forward (l : fc) (x : tensor T) : fc * outcome (tensor T) :=
  let l' := mkFC (fc_w l) (fc_b l) (Some x) (fc_gw l) (fc_gb l) in
  (l', x2 <- as_row x ;;
       y <- t_matmul x2 (fc_w l) ;;
       y <- t_add y (fc_b l) ;;
       if rank (tshape x) =? 1 then d <- rd (tdims y) 1 ;; reshape_to y [d] else Ok y).
(** Lines 56-88; the weight gradient is stored before the bias gradient is computed. *)
Definition fc_backward (l : fc) (g : tensor T) : fc * outcome (tensor T) :=
  match fc_in l with
  | None => (l, Throw RuntimeError)
  | Some x =>
      step l (x2 <- as_row x ;; g2 <- as_row g ;; xt <- t_transpose x2 0 1 ;; gw <- t_matmul xt g2 ;; Ok (g2, gw)) (fun p =>
      let (g2, gw) := p in
      let l1 := mkFC (fc_w l) (fc_b l) (fc_in l) (Some gw) (fc_gb l) in
      step l1 (s <- t_sum_axis g2 0 ;; d <- rd (tdims (fc_b l)) 1 ;; reshape_to s [1; d]) (fun gb =>
      let l2 := mkFC (fc_w l) (fc_b l) (fc_in l) (Some gw) (Some gb) in
      (l2, wt <- t_transpose (fc_w l) 0 1 ;; t_matmul g2 wt)))
  end.
(** Lines 121-136 setWeights, setBiases, setBiasGradient, setWeightGradient. *)
Definition fc_set_weights (l : fc) (w : tensor T) : fc := mkFC w (fc_b l) (fc_in l) (fc_gw l) (fc_gb l).
Definition fc_set_biases (l : fc) (b : tensor T) : fc * outcome unit :=
  let bad := if negb (rank (tshape b) =? 2) then Ok true else d <- rd (tdims b) 0 ;; Ok (negb (d =? 1)) in
  step l bad (fun bad => if bad : bool then (l, Throw InvalidArgument)
                         else (mkFC (fc_w l) b (fc_in l) (fc_gw l) (fc_gb l), Ok tt)).

(** ** ActivationLayer.hpp:15-32 *)
Record actl := mkActL { al_act : act T; al_in : option (tensor T) }.
Definition act_new (a : act T) : actl := mkActL a None.
Definition act_forward (l : actl) (x : tensor T) : actl * outcome (tensor T) :=
  (mkActL (al_act l) (Some x), act_fwd (al_act l) x).
(** [*input] of an empty optional is undefined. *)
Definition act_backward (l : actl) (g : tensor T) : outcome (tensor T) :=
  match al_in l with None => UB | Some x => act_bwd (al_act l) x g end.

(** ** FlattenLayer.hpp *)
Record flatten := mkFlatten { fl_shape : option shape }.
Definition flatten_new : flatten := mkFlatten None.
(** Lines 24-38; the shape is stored only for rank above two. *)
Definition flatten_forward (l : flatten) (x : tensor T) : flatten * outcome (tensor T) :=
  if rank (tshape x) <? 2 then (l, Throw InvalidArgument)
  else if rank (tshape x) =? 2 then (l, Ok x)
  else let l' := mkFlatten (Some (tshape x)) in
       (l', b <- rd (tdims x) 0 ;;
            if b =? 0 then UB else reshape_to x [b; i32 (ssize (tshape x) / b)]).
(** Lines 48-50 *)
Definition flatten_backward (l : flatten) (g : tensor T) : outcome (tensor T) :=
  match fl_shape l with None => UB | Some s => t_reshape g (dims s) end.

(** ** Conv2DLayer.hpp *)
(** Lines 178-190.  As above the parameters are never empty. *)
Record conv := mkConv { cv_w : tensor T; cv_b : tensor T; cv_in : option (tensor T);
  cv_gw : option (tensor T); cv_gb : option (tensor T);
  cv_ic : Z; cv_oc : Z; cv_kh : Z; cv_kw : Z; cv_stride : Z; cv_pad : Z; cv_dil : Z }.
(** Lines 18-27 and 191-194 *)
Definition conv_new {G} `{Rng T G} (ic oc kh kw stride pad dil : Z) (g : G) : outcome (conv * G) :=
  ' (w, g') <- f_rand [oc; ic; kh; kw] g ;;
  b <- f_zeros [oc; 1] ;;
  Ok (mkConv w b None None None ic oc kh kw stride pad dil, g').
(** Lines 35-76.  A failed assert aborts.  [float sum]: modelled for T = float. *)
Definition conv_forward (l : conv) (x : tensor T) : conv * outcome (tensor T) :=
  if negb (rank (tshape x) =? 4) then (l, Abort) else
  step l (rd (tdims x) 1) (fun c =>
  if negb (c =? cv_ic l) then (l, Abort) else
  let l' := mkConv (cv_w l) (cv_b l) (Some x) (cv_gw l) (cv_gb l) (cv_ic l) (cv_oc l) (cv_kh l) (cv_kw l) (cv_stride l) (cv_pad l) (cv_dil l) in
  (l', n <- rd (tdims x) 0 ;; h <- rd (tdims x) 2 ;; w <- rd (tdims x) 3 ;;
       d <- chk32 (h - cv_kh l) ;; oh <- chk32 (d + 1) ;;
       d <- chk32 (w - cv_kw l) ;; ow <- chk32 (d + 1) ;;
       s <- new_shape [n; cv_oc l; oh; ow] ;;
       for_ 0 n (fun b => for_ 0 (cv_oc l) (fun o => for_ 0 oh (fun i => for_ 0 ow (fun j out =>
         sum <- for_ 0 (cv_kh l) (fun kh => for_ 0 (cv_kw l) (fun kw sum =>
                  xv <- t_at x [b; 0; i + kh; j + kw] ;;
                  wv <- t_at (cv_w l) [o; 0; kh; kw] ;;
                  Ok (s_add sum (s_mul xv wv)))) zero ;;
         bv <- t_at (cv_b l) [o; 0] ;;
         t_at_set out [b; o; i; j] (s_add sum bv))))) (t_new s))).
(** t[idx] += v through at(). *)
Definition t_at_add (t : tensor T) (idx : list Z) (v : T) : outcome (tensor T) :=
  x <- t_at t idx ;; t_at_set t idx (s_add x v).
(** A loop over a value that stays where it is when a step fails: the value reached, and the outcome.  [kept] is one such step. *)
Fixpoint keep_loop {A St} (body : A -> St -> St * outcome unit) (l : list A) (s : St) : St * outcome unit :=
  match l with
  | [] => (s, Ok tt)
  | a :: l' => let (s1, o) := body a s in step s1 o (fun _ => keep_loop body l' s1)
  end.
Definition kept {St} (s : St) (m : outcome St) : St * outcome unit := step s m (fun s' => (s', Ok tt)).
Definition conv_with (l : conv) (gw gb : tensor T) : conv :=
  mkConv (cv_w l) (cv_b l) (cv_in l) (Some gw) (Some gb) (cv_ic l) (cv_oc l) (cv_kh l) (cv_kw l) (cv_stride l) (cv_pad l) (cv_dil l).
(** Lines 84-135.  The gradients are set to zero first and filled in place, so a call that fails leaves them partly filled. *)
Definition conv_backward (l : conv) (g : tensor T) : conv * outcome (tensor T) :=
  match cv_in l with
  | None => (l, Throw RuntimeError)
  | Some x =>
      let gw0 := t_new (tshape (cv_w l)) in
      let gb0 := t_new (tshape (cv_b l)) in
      step (conv_with l gw0 gb0) (gh <- rd (tdims g) 2 ;; gwd <- rd (tdims g) 3 ;; Ok (gh, gwd)) (fun p =>
      let (gh, gwd) := p in
      (* lines 101-105 *)
      let (gb, o) := keep_loop (fun i => keep_loop (fun j gb =>
            kept gb (v <- t_at g [0; 0; i; j] ;; o <- t_get gb 0 ;; t_set gb 0 (s_add o v))) (zrange 0 gwd)) (zrange 0 gh) gb0 in
      step (conv_with l gw0 gb) o (fun _ =>
      (* lines 108-118 *)
      let (gw, o) := keep_loop (fun kh => keep_loop (fun kw gw => kept gw (
            sum <- for_ 0 gh (fun i => for_ 0 gwd (fun j sum =>
                     xv <- t_at x [0; 0; i + kh; j + kw] ;; gv <- t_at g [0; 0; i; j] ;;
                     Ok (s_add sum (s_mul xv gv)))) zero ;;
            t_at_set gw [0; 0; kh; kw] sum)) (zrange 0 (cv_kw l))) (zrange 0 (cv_kh l)) gw0 in
      (* lines 121-134 *)
      step (conv_with l gw gb) o (fun _ =>
      (conv_with l gw gb,
       for_ 0 gh (fun i => for_ 0 gwd (fun j => for_ 0 (cv_kh l) (fun kh => for_ 0 (cv_kw l) (fun kw gi =>
             wv <- t_at (cv_w l) [0; 0; kh; kw] ;; gv <- t_at g [0; 0; i; j] ;;
             t_at_add gi [0; 0; i + kh; j + kw] (s_mul wv gv))))) (t_new (tshape x))))))
  end.

End Layers.
Arguments fc : clear implicits.
Arguments actl : clear implicits.
Arguments conv : clear implicits.
