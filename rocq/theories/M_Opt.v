(** * Optimizers (smart_dnn/Optimizer.hpp, smart_dnn/Optimizers/*.hpp)

    Weights are passed by reference: they are named by an address and live in a [store].  The optimizers use the
    address of the tensor (Adam) or of its buffer (SGD, RMSProp) as the key of their state; one number stands for
    both.  Gradients are passed by value: the library never writes to them, and never passes a weight as a gradient. *)
From Verif Require Import Base Scalar Types M_Shape M_Tensor M_Layers.

(** A total map changed at one key. *)
Definition put {A} (m : Z -> A) (k : Z) (v : A) : Z -> A := fun x => if x =? k then v else m x.

Section Opt.
Context {T : Type} {S : Scalar T}.

Definition store := Z -> tensor T.
(** std::unordered_map from addresses to tensors *)
Definition bufs := Z -> option (tensor T).
(** find; if absent insert a zero tensor of the weight's shape (SGDOptimizer.hpp:57-59, RMSPropOptimizer.hpp:57-59,
    67-69, 78-80, AdamOptimizer.hpp:95-100). *)
Definition buf_get (b : bufs) (k : Z) (s : shape) : tensor T := match b k with Some m => m | None => t_fill s zero end.

(** The loop over weights[i], gradients[i] (SGDOptimizer.hpp:40-42, RMSPropOptimizer.hpp:42-44, AdamOptimizer.hpp:47-49).
    [update o k w g c] updates one tensor; [c] holds the values fixed for the call. *)
Fixpoint opt_loop {O C} (update : O -> Z -> tensor T -> tensor T -> C -> O * outcome (tensor T)) (c : C)
    (l : list (Z * tensor T)) (o : O) (st : store) : O * store * outcome unit :=
  match l with
  | [] => (o, st, Ok tt)
  | (k, g) :: r =>
      match update o k (st k) g c with
      | (o', Ok w') => opt_loop update c r o' (put st k w')
      | (o', Throw e) => (o', st, Throw e) | (o', Abort) => (o', st, Abort) | (o', UB) => (o', st, UB) | (o', Hang) => (o', st, Hang)
      end
  end.

(** ** SGDOptimizer.hpp *)
(** Lines 13-19, 91-98 *)
Record sgd := mkSGD { sg_lr : T; sg_mom : T; sg_damp : T; sg_wd : T; sg_nest : bool; sg_buf : bufs }.
Definition sgd_new (lr mom damp wd : T) (nest : bool) : sgd := mkSGD lr mom damp wd nest (fun _ => None).
(** Lines 65-88: one iteration of the loop on (weight data, momentum data). *)
Definition sgd_body (o : sgd) (gd : list T) (lr : T) (j : Z) (p : list T * list T) : outcome (list T * list T) :=
  let '(w, m) := p in
  g <- rd gd j ;;
  g <- (if negb (s_eq (sg_wd o) zero) then wv <- rd w j ;; Ok (s_add g (s_mul (sg_wd o) wv)) else Ok g) ;;
  ' (g, m) <- (if negb (s_eq (sg_mom o) zero) then
                 mv <- rd m j ;;
                 let mv := s_add (s_mul (sg_mom o) mv) (s_mul (s_sub one (sg_damp o)) g) in
                 m <- wr m j mv ;;
                 Ok (if sg_nest o then s_add g (s_mul (sg_mom o) mv) else mv, m)
               else Ok (g, m)) ;;
  wv <- rd w j ;; w <- wr w j (s_sub wv (s_mul lr g)) ;; Ok (w, m).
(** Lines 46-89 *)
Definition sgd_update (o : sgd) (k : Z) (w g : tensor T) (lr : T) : sgd * outcome (tensor T) :=
  let m := buf_get (sg_buf o) k (tshape w) in
  let o1 := mkSGD (sg_lr o) (sg_mom o) (sg_damp o) (sg_wd o) (sg_nest o) (put (sg_buf o) k (Some m)) in
  step o1 (for_ 0 (ssize (tshape w)) (sgd_body o (tdata g) lr) (tdata w, tdata m)) (fun p =>
    (mkSGD (sg_lr o) (sg_mom o) (sg_damp o) (sg_wd o) (sg_nest o) (put (sg_buf o) k (Some (mkTensor (tshape m) (snd p)))),
     Ok (mkTensor (tshape w) (fst p)))).
(** Lines 31-43 *)
Definition sgd_rate (o : sgd) (lro : T) : T := if s_lt zero lro then lro else sg_lr o.
Definition sgd_optimize (o : sgd) (st : store) (ks : list Z) (gs : list (tensor T)) (lro : T) : sgd * store * outcome unit :=
  if negb (Zlen ks =? Zlen gs) then (o, st, Throw InvalidArgument)
  else opt_loop sgd_update (sgd_rate o lro) (combine ks gs) o st.

(** ** RMSPropOptimizer.hpp *)
(** Lines 13-20, 123-133 *)
Record rms := mkRMS { rp_lr : T; rp_alpha : T; rp_eps : T; rp_mom : T; rp_cent : bool; rp_wd : T; rp_sq : bufs; rp_mean : bufs; rp_vel : bufs }.
Definition rms_new (lr alpha eps mom : T) (cent : bool) (wd : T) : rms := mkRMS lr alpha eps mom cent wd (fun _ => None) (fun _ => None) (fun _ => None).
(** Lines 85-120: one iteration on (weight, squared average, mean, velocity) data; the last two are null, here
    empty, when not used. *)
Definition rms_body (o : rms) (gd : list T) (lr : T) (j : Z) (p : list T * list T * list T * list T) : outcome (list T * list T * list T * list T) :=
  let '(w, sq, mean, vel) := p in
  g <- rd gd j ;;
  g <- (if negb (s_eq (rp_wd o) zero) then wv <- rd w j ;; Ok (s_add g (s_mul (rp_wd o) wv)) else Ok g) ;;
  sv <- rd sq j ;;
  let sv := s_add (s_mul (rp_alpha o) sv) (s_mul (s_mul (s_sub one (rp_alpha o)) g) g) in
  sq <- wr sq j sv ;;
  ' (den, mean) <- (if rp_cent o then
                      mv <- rd mean j ;;
                      let mv := s_add (s_mul (rp_alpha o) mv) (s_mul (s_sub one (rp_alpha o)) g) in
                      mean <- wr mean j mv ;;
                      Ok (s_sqrt (s_add (s_sub sv (s_mul mv mv)) (rp_eps o)), mean)
                    else Ok (s_sqrt (s_add sv (rp_eps o)), mean)) ;;
  let u := s_div g den in
  if s_lt zero (rp_mom o) then
    vv <- rd vel j ;;
    let vv := s_add (s_mul (rp_mom o) vv) u in
    vel <- wr vel j vv ;;
    wv <- rd w j ;; w <- wr w j (s_sub wv (s_mul lr vv)) ;; Ok (w, sq, mean, vel)
  else
    wv <- rd w j ;; w <- wr w j (s_sub wv (s_mul lr u)) ;; Ok (w, sq, mean, vel).
(** Lines 48-121 *)
Definition rms_update (o : rms) (k : Z) (w g : tensor T) (lr : T) : rms * outcome (tensor T) :=
  let sq := buf_get (rp_sq o) k (tshape w) in
  let mean := buf_get (rp_mean o) k (tshape w) in
  let vel := buf_get (rp_vel o) k (tshape w) in
  let keep (sq mean vel : tensor T) := mkRMS (rp_lr o) (rp_alpha o) (rp_eps o) (rp_mom o) (rp_cent o) (rp_wd o) (put (rp_sq o) k (Some sq))
      (if rp_cent o then put (rp_mean o) k (Some mean) else rp_mean o) (if s_lt zero (rp_mom o) then put (rp_vel o) k (Some vel) else rp_vel o) in
  step (keep sq mean vel)
    (for_ 0 (ssize (tshape w)) (rms_body o (tdata g) lr)
       (tdata w, tdata sq, if rp_cent o then tdata mean else [], if s_lt zero (rp_mom o) then tdata vel else [])) (fun p =>
    let '(wd, sd, md, vd) := p in
    (keep (mkTensor (tshape sq) sd) (mkTensor (tshape mean) md) (mkTensor (tshape vel) vd), Ok (mkTensor (tshape w) wd))).
(** Lines 33-45 *)
Definition rms_rate (o : rms) (lro : T) : T := if s_lt zero lro then lro else rp_lr o.
Definition rms_optimize (o : rms) (st : store) (ks : list Z) (gs : list (tensor T)) (lro : T) : rms * store * outcome unit :=
  if negb (Zlen ks =? Zlen gs) then (o, st, Throw InvalidArgument)
  else opt_loop rms_update (rms_rate o lro) (combine ks gs) o st.

(** ** AdamOptimizer.hpp *)
(** Lines 12-21, 53-64 *)
Record adam := mkAdam { ad_init : T; ad_lr : T; ad_b1 : T; ad_b2 : T; ad_eps : T; ad_l1 : T; ad_l2 : T; ad_decay : T;
  ad_it : Z; ad_batch : Z; ad_m : bufs; ad_v : bufs }.
(** Lines 26-36 *)
Definition adam_new (lr b1 b2 eps l1 l2 decay : T) (batch : Z) : adam := mkAdam lr lr b1 b2 eps l1 l2 decay 0 batch (fun _ => None) (fun _ => None).
(** std::numeric_limits<T>::min() for T = float: 2^-126. *)
Definition tiny : T := s_lit 1 85070591730234615865843651857942052864.
(** Lines 79-81 *)
Definition adam_alpha (o : adam) : T :=
  let p1 := s_max (s_powi (ad_b1 o) (ad_it o)) tiny in
  let p2 := s_max (s_powi (ad_b2 o) (ad_it o)) tiny in
  s_div (s_mul (ad_lr o) (s_sqrt (s_sub one p2))) (s_sub one p1).
(** Lines 102-128: the new (weight, m, v) of one parameter. *)
Definition adam_param (o : adam) (alpha w g m v : T) : T * T * T :=
  let avg := s_div g (s_z (ad_batch o)) in
  let m := s_add (s_mul (ad_b1 o) m) (s_mul (s_sub one (ad_b1 o)) avg) in
  let v := s_add (s_mul (ad_b2 o) v) (s_mul (s_mul (s_sub one (ad_b2 o)) avg) avg) in
  let mh := s_corr m (ad_b1 o) (ad_it o) in
  let vh := s_corr v (ad_b2 o) (ad_it o) in
  let u := s_div (s_mul alpha mh) (s_add (s_sqrt vh) (ad_eps o)) in
  let u := if s_lt zero (ad_l1 o) then
             s_add u (s_mul (s_mul (ad_lr o) (ad_l1 o)) (if s_lt zero w then one else if s_lt w zero then s_z (-1) else zero))
           else u in
  let u := if s_lt zero (ad_l2 o) then s_add u (s_mul (s_mul (ad_lr o) (ad_l2 o)) w) else u in
  (s_sub w u, m, v).
(** Lines 90-92 *)
Definition adam_body (o : adam) (gd : list T) (alpha : T) (j : Z) (p : list T * list T * list T) : outcome (list T * list T * list T) :=
  let '(w, m, v) := p in
  wv <- rd w j ;; g <- rd gd j ;; mv <- rd m j ;; vv <- rd v j ;;
  let '(wv, mv, vv) := adam_param o alpha wv g mv vv in
  m <- wr m j mv ;; v <- wr v j vv ;; w <- wr w j wv ;; Ok (w, m, v).
(** Lines 75-100.  m and v are always inserted together; the unit argument is a placeholder for [opt_loop]. *)
Definition adam_with (o : adam) (k : Z) (m v : tensor T) : adam :=
  mkAdam (ad_init o) (ad_lr o) (ad_b1 o) (ad_b2 o) (ad_eps o) (ad_l1 o) (ad_l2 o) (ad_decay o) (ad_it o) (ad_batch o)
    (put (ad_m o) k (Some m)) (put (ad_v o) k (Some v)).
Definition adam_update (o : adam) (k : Z) (w g : tensor T) (_ : unit) : adam * outcome (tensor T) :=
  let m := buf_get (ad_m o) k (tshape w) in
  let v := buf_get (ad_v o) k (tshape w) in
  step (adam_with o k m v) (for_ 0 (ssize (tshape w)) (adam_body o (tdata g) (adam_alpha o)) (tdata w, tdata m, tdata v)) (fun p =>
    let '(wd, md, vd) := p in
    (adam_with o k (mkTensor (tshape m) md) (mkTensor (tshape v) vd), Ok (mkTensor (tshape w) wd))).
(** Lines 66-73; a signed overflow of the counter is undefined. *)
Definition adam_rate (o : adam) (lro : T) : outcome adam :=
  it <- chk32 (ad_it o + 1) ;;
  let lr := if s_le lro zero then
              s_mul (ad_init o) (if s_lt zero (ad_decay o) then s_div one (s_add one (s_mul (ad_decay o) (s_z it))) else one)
            else lro in
  Ok (mkAdam (ad_init o) lr (ad_b1 o) (ad_b2 o) (ad_eps o) (ad_l1 o) (ad_l2 o) (ad_decay o) it (ad_batch o) (ad_m o) (ad_v o)).
(** Lines 38-50 *)
Definition adam_optimize (o : adam) (st : store) (ks : list Z) (gs : list (tensor T)) (lro : T) : adam * store * outcome unit :=
  if negb (Zlen ks =? Zlen gs) then (o, st, Throw InvalidArgument)
  else match adam_rate o lro with
       | Ok o1 => opt_loop adam_update tt (combine ks gs) o1 st
       | Throw e => (o, st, Throw e) | Abort => (o, st, Abort) | UB => (o, st, UB) | Hang => (o, st, Hang)
       end.

(** ** A sequence of optimize calls, each given by (override, weights and their gradients); stops at the first failure. *)
Fixpoint opt_run {O} (optimize : O -> store -> list Z -> list (tensor T) -> T -> O * store * outcome unit)
    (cs : list (T * list (Z * tensor T))) (o : O) (st : store) : O * store * outcome unit :=
  match cs with
  | [] => (o, st, Ok tt)
  | (lro, l) :: r =>
      match optimize o st (map fst l) (map snd l) lro with
      | (o', st', Ok _) => opt_run optimize r o' st'
      | other => other
      end
  end.
End Opt.
Arguments store : clear implicits.
Arguments bufs : clear implicits.
Arguments sgd : clear implicits.
Arguments rms : clear implicits.
Arguments adam : clear implicits.
