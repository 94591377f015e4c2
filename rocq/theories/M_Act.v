(** * Activations (smart_dnn/Activations/*.hpp)

    Sigmoid's lambda takes a [float]; it is modelled for T = float, where this is no conversion. *)
From Verif Require Import Base Scalar Types M_Shape M_Tensor M_Adv.

Section Act.
Context {T : Type} {S : Scalar T}.

(** ReLU.hpp:21-27 *)
Definition relu_fwd (x : tensor T) := t_apply x (fun v => s_max zero v).
Definition relu_bwd (x g : tensor T) : outcome (tensor T) :=
  d <- t_apply x (fun v => if s_lt zero v then one else zero) ;; t_mul d g.

(** LeakyReLU.hpp:25-33; the local copy [output] of line 26 is unused. *)
Definition leaky_fwd (alpha : T) (x : tensor T) := t_apply x (fun v => if s_lt zero v then v else s_mul alpha v).
Definition leaky_bwd (alpha : T) (x g : tensor T) :=
  t_apply_pair (fun v gr => if s_le zero v then gr else s_mul alpha gr) x g.

(** Sigmoid.hpp:22-29 *)
Definition sigm (v : T) : T := s_div one (s_add one (s_exp (s_neg v))).
Definition sigmoid_fwd (x : tensor T) := t_apply x sigm.
Definition sigmoid_bwd (x g : tensor T) : outcome (tensor T) :=
  sg <- sigmoid_fwd x ;; om <- s_sub_t one sg ;; p <- t_mul sg om ;; t_mul p g.

(** Tanh.hpp:22-28 *)
Definition tanh_fwd (x : tensor T) :=
  t_apply x (fun v => s_div (s_sub (s_exp (s_mul v (s_z 2))) one) (s_add (s_exp (s_mul v (s_z 2))) one)).
Definition tanh_bwd (x g : tensor T) : outcome (tensor T) :=
  d <- t_apply x (fun v => s_sub one (s_mul (s_tanh v) (s_tanh v))) ;; t_mul d g.

(** Swish.hpp:23-36 *)
Definition swish_fwd (x : tensor T) := t_apply x (fun v => s_mul v (sigm v)).
Definition swish_bwd (x g : tensor T) :=
  t_apply_pair (fun v gr => let s := sigm v in
    let d := s_mul s (s_add one (s_mul v (s_sub one s))) in s_mul gr d) x g.

(** Mish.hpp:25-41 *)
Definition softplus (v : T) : T := s_log (s_add one (s_exp v)).
Definition mish_fwd (x : tensor T) := t_apply x (fun v => s_mul v (s_tanh (softplus v))).
Definition mish_bwd (x g : tensor T) :=
  t_apply_pair (fun v gr =>
    let th := s_tanh (softplus v) in
    let sg := sigm v in
    let sech2 := s_sub one (s_mul th th) in
    let d := s_add th (s_mul (s_mul v sech2) sg) in
    s_mul gr d) x g.

(** Softmax.hpp:35-36 and 71-72: batch size and features per batch entry, as [int]. *)
Definition sm_sizes (x : tensor T) : outcome (Z * Z) :=
  bs <- rd (tdims x) 0 ;;
  if bs =? 0 then UB else Ok (bs, i32 (ssize (tshape x) / bs)).

(** std::max_element over [n] elements from [off]; the first greatest one.  [n] = 0
    dereferences the end pointer: undefined unless it happens to be readable. *)
Definition max_element (l : list T) (off n : Z) : outcome T :=
  m <- rd l off ;;
  for_ 1 n (fun i m => v <- rd l (off + i) ;; Ok (if s_lt m v then v else m)) m.

(** Softmax.hpp:26-57 *)
Definition softmax_fwd (x : tensor T) : outcome (tensor T) :=
  if rank (tshape x) <? 2 then Throw InvalidArgument else
  ' (bs, fs) <- sm_sizes x ;;
  out <- for_ 0 bs (fun b out =>
    off <- chk32 (b * fs) ;;
    mx <- max_element (tdata x) off fs ;;
    ' (out, sum) <- for_ 0 fs (fun i (st : list T * T) => let (out, sum) := st in
        v <- rd (tdata x) (off + i) ;;
        out' <- wr out (off + i) (s_exp (s_sub v mx)) ;;
        o <- rd out' (off + i) ;;
        Ok (out', s_add sum o)) (out, zero) ;;
    for_ 0 fs (fun i out => o <- rd out (off + i) ;; wr out (off + i) (s_div o sum)) out)
    (tdata (t_new (tshape x))) ;;
  Ok (mkTensor (tshape x) out).

(** Softmax.hpp:59-93 *)
Definition softmax_bwd (x g : tensor T) : outcome (tensor T) :=
  if (rank (tshape x) <? 2) || (rank (tshape g) <? 2) then Throw InvalidArgument else
  y <- softmax_fwd x ;;
  ' (bs, fs) <- sm_sizes x ;;
  out <- for_ 0 bs (fun b out =>
    off <- chk32 (b * fs) ;;
    for_ 0 fs (fun i out =>
      gr <- for_ 0 fs (fun j gr =>
         yi <- rd (tdata y) (off + i) ;;
         yj <- rd (tdata y) (off + j) ;;
         gj <- rd (tdata g) (off + j) ;;
         Ok (if i =? j then s_add gr (s_mul (s_mul yi (s_sub one yj)) gj)
             else s_sub gr (s_mul (s_mul yi yj) gj))) zero ;;
      wr out (off + i) gr) out)
    (tdata (t_new (tshape x))) ;;
  Ok (mkTensor (tshape x) out).

(** The Activation interface (Activation.hpp:8-14) as a closed choice of its implementations. *)
Inductive act := ReLU | LeakyReLU (alpha : T) | Sigmoid | Tanh | Swish | Mish | Softmax.
Definition act_fwd (a : act) (x : tensor T) : outcome (tensor T) :=
  match a with
  | ReLU => relu_fwd x | LeakyReLU al => leaky_fwd al x | Sigmoid => sigmoid_fwd x | Tanh => tanh_fwd x
  | Swish => swish_fwd x | Mish => mish_fwd x | Softmax => softmax_fwd x
  end.
Definition act_bwd (a : act) (x g : tensor T) : outcome (tensor T) :=
  match a with
  | ReLU => relu_bwd x g | LeakyReLU al => leaky_bwd al x g | Sigmoid => sigmoid_bwd x g | Tanh => tanh_bwd x g
  | Swish => swish_bwd x g | Mish => mish_bwd x g | Softmax => softmax_bwd x g
  end.
End Act.
Arguments act : clear implicits.
