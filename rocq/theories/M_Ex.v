(** * The programs in examples/

    Simplification: what the programs print is left out, and the MNIST program is followed up to the end of training; M_Show.v
    continues it to its end with what it prints. *)
From Verif Require Import Base Scalar Types M_Shape M_Tensor M_Adv M_Act M_Loss M_Layers M_Reg M_Opt M_Net M_Data.

(** ** examples/SimpleLinearRegressionModel.cpp *)
Section Linear.
Context {T D G GD : Type} {S : Scalar T} {SD : Scalar D} {HR : Rng T G} {HD : Rng D GD}.
Variables (to_d : T -> D) (to_f : D -> T).

(** Lines 23-31: the model; the layers draw their weights from the engine shared by all tensors. *)
Definition linear_net (g : G) : outcome (net T G) :=
  '(l1, g1) <- fc_new 1 10 g ;;
  '(l3, g3) <- fc_new 10 1 g1 ;;
  let n := net_add (net_add (net_add (net_new g3) (LFC l1)) (LAct (act_new ReLU))) (LFC l3) in
  Ok (net_compile n MSE (OAdam (adam_new (s_lit 1 100) (s_lit 9 10) (s_lit 999 1000) (s_lit 1 100000000) zero zero zero 1))).
(** Lines 21-42: the prediction that is printed.  The data set has its own engine, in state [gd]. *)
Definition linear_example (gd : GD) (g : G) : outcome (tensor T) :=
  '(inputs, targets) <- gen_linear to_d to_f 100 one gd ;;
  n <- linear_net g ;;
  let (n1, r) := net_train n inputs targets 100 in
  _ <- r ;;
  s <- new_shape [1] ;;
  snd (net_predict (net_set_mode n1 false) (t_fill s (s_z 10))).
End Linear.

(** ** examples/MNistModel.cpp *)
Section Mnist.
Context {T G : Type} {S : Scalar T} {HR : Rng T G}.

(** Lines 28-54 *)
Definition mnist_net (g : G) : outcome (net T G) :=
  '(c, g1) <- conv_new 1 32 3 3 1 0 1 g ;;
  b1 <- bn_new 32 (s_lit 1 100000) (s_lit 9 10) ;;
  '(f1, g2) <- fc_new 5408 128 g1 ;;
  b2 <- bn_new 128 (s_lit 1 100000) (s_lit 9 10) ;;
  '(f2, g3) <- fc_new 128 10 g2 ;;
  let n := fold_left net_add [LConv c; LBN b1; LAct (act_new ReLU); LPool (pool_new 2 2 0); LDrop (dropout_new (s_lit 1 4));
                              LFlat flatten_new; LFC f1; LBN b2; LAct (act_new ReLU); LDrop (dropout_new (s_lit 1 4));
                              LFC f2; LAct (act_new Softmax)] (net_new g3) in
  Ok (net_compile n CCE (OAdam (adam_new (s_lit 1 1000) (s_lit 9 10) (s_lit 999 1000) (s_lit 1 100000000) zero zero zero 1))).
(** Lines 20-65: up to the end of training on the first 1000 images, in batches of 8, for 10 epochs. *)
Definition mnist_example (images labels : option stream) (g : G) : outcome (net T G) :=
  n <- mnist_net g ;;
  '(inputs, targets) <- load_data 8 1000 images labels ;;
  let (n1, r) := net_train n inputs targets 10 in
  _ <- r ;; Ok n1.
End Mnist.

(** ** The quick start of README.md *)
Section Readme.
Context {T G : Type} {S : Scalar T} {HR : Rng T G}.

(** README.md lines 41-53, with the default options of Adam (AdamOptimizer.hpp:12-21). *)
Definition readme_net (g : G) : outcome (net T G) :=
  '(f1, g1) <- fc_new 10 100 g ;;
  '(f2, g2) <- fc_new 100 100 g1 ;;
  '(f3, g3) <- fc_new 100 10 g2 ;;
  let n := fold_left net_add [LFC f1; LAct (act_new ReLU); LFC f2; LAct (act_new Sigmoid); LFC f3; LAct (act_new Softmax)] (net_new g3) in
  Ok (net_compile n MSE (OAdam (adam_new (s_lit 1 1000) (s_lit 9 10) (s_lit 999 1000) (s_lit 1 100000000) zero zero zero 1))).
End Readme.
