(** * Specification: a float32 network and the same network in exact arithmetic (C122) *)
From Coq Require Import Reals SpecFloat.
From Verif Require Import Base Scalar ScalarR Types Spec SpecNN SpecLayers SpecR SpecF32 M_Shape M_Tensor M_Adv M_Act M_Layers M_Reg M_Net L_Layers L_Conv.
Local Open Scope R_scope.

(** The numbers that the floats stand for. *)
Definition exact (t : tensor f32) : tensor R := mkTensor (tshape t) (map f32_value (tdata t)).
(** The same layer in exact arithmetic. *)
Inductive twin : layer f32 -> layer R -> Prop :=
  | twin_dense : forall l l', fc_w l' = exact (fc_w l) -> fc_b l' = exact (fc_b l) -> twin (LFC l) (LFC l')
  | twin_conv : forall l l', cv_w l' = exact (cv_w l) -> cv_b l' = exact (cv_b l) -> cv_ic l' = cv_ic l -> cv_oc l' = cv_oc l -> cv_kh l' = cv_kh l -> cv_kw l' = cv_kw l -> twin (LConv l) (LConv l')
  | twin_relu : forall i i', twin (LAct (mkActL ReLU i)) (LAct (mkActL ReLU i'))
  | twin_leaky : forall al i i', twin (LAct (mkActL (LeakyReLU al) i)) (LAct (mkActL (LeakyReLU (f32_value al)) i'))
  | twin_sigmoid : forall i i', twin (LAct (mkActL Sigmoid i)) (LAct (mkActL Sigmoid i'))
  | twin_tanh : forall i i', twin (LAct (mkActL Tanh i)) (LAct (mkActL Tanh i'))
  | twin_swish : forall i i', twin (LAct (mkActL Swish i)) (LAct (mkActL Swish i'))
  | twin_mish : forall i i', twin (LAct (mkActL Mish i)) (LAct (mkActL Mish i'))
  | twin_softmax : forall i i', twin (LAct (mkActL Softmax i)) (LAct (mkActL Softmax i'))
  | twin_flatten : forall l l', twin (LFlat l) (LFlat l')
  | twin_pool : forall l l', po_size l' = po_size l -> po_stride l' = po_stride l -> po_pad l' = po_pad l -> twin (LPool l) (LPool l')
  | twin_bn : forall l l', bn_gamma l' = exact (bn_gamma l) -> bn_beta l' = exact (bn_beta l) -> bn_rmean l' = exact (bn_rmean l) -> bn_rvar l' = exact (bn_rvar l) -> bn_eps l' = f32_value (bn_eps l) -> bn_train l' = bn_train l -> twin (LBN l) (LBN l')
  | twin_dropout : forall r m r' m', twin (LDrop (mkDrop r m false)) (LDrop (mkDrop r' m' false)).

(** What is asked of [expf]: the relative error of a finite value is at most [d], and it is infinite only where the exact value is large. *)
Definition exp_within (d : R) (e : f32 -> f32) : Prop := forall x, f32_valid x -> f32_finite x ->
  (f32_finite (e x) -> Rabs (f32_value (e x) - exp (f32_value x)) <= d * exp (f32_value x) + tiny_half) /\ (~ f32_finite (e x) -> 2 ^ 100 <= exp (f32_value x)).
(** The same for [logf] from 1 on and for [tanhf]. *)
Definition log_within (d : R) (l : f32 -> f32) : Prop := forall x, f32_valid x -> f32_finite x -> 1 <= f32_value x -> Rabs (f32_value (l x) - ln (f32_value x)) <= d * Rabs (ln (f32_value x)) + tiny_half.
Definition tanh_within (d : R) (h : f32 -> f32) : Prop := forall x, f32_valid x -> f32_finite x -> Rabs (f32_value (h x) - tanh (f32_value x)) <= d * Rabs (tanh (f32_value x)) + tiny_half.

Section S.
Variable lm : libm.
Local Notation el32 := (@el f32 (F32Scalar lm)).
(** [x] is a tensor of finite floats with dimensions [ds]; [y] has the same dimensions and numbers of at most [M], and each number of
    [x] is within [E] of that of [y]. *)
Definition close (ds : list Z) (M E : R) (x : tensor f32) (y : tensor R) : Prop :=
  good x /\ tdims x = ds /\ all_finite x /\ good y /\ tdims y = ds /\ forall idx, in_range ds idx -> Rabs (el y idx) <= M /\ Rabs (f32_value (el32 x idx) - el y idx) <= E.
(** How the bounds [M] on the numbers and [E] on the error change in one layer.  [n] products are added up, with weights whose absolute
    values add up to [A] at most, to a bias of [B] at most. *)
Definition next_error (n : Z) (A B M E : R) : R := A * E + IZR (n + 1) * (A * (M + E) + B) / 2 ^ 23 + IZR n / 2 ^ 148.
(** Batch normalisation in evaluation mode, with running means of at most [mu], scales gamma of at most [C] and of at most [A] times the running
    standard deviation, and shifts beta of at most [B]. *)
Definition norm_error (mu A B C M E : R) : R := A * E + (12 * A * (M + E + mu) + 2 * B) / 2 ^ 24 + (C + 1) / 2 ^ 148.
Inductive drift : list Z -> R -> R -> layer f32 -> list Z -> R -> R -> Prop :=
  | drift_dense : forall n k o M E l A B, fc_wf l k o -> all_finite (fc_w l) -> all_finite (fc_b l) -> (n * o <= INT_MAX)%Z -> (k < 2 ^ 23)%Z ->
      (forall j, (0 <= j < o)%Z -> rsum (zrange 0 k) (fun p => Rabs (f32_value (el32 (fc_w l) [p; j]))) <= A) ->
      (forall j, (0 <= j < o)%Z -> Rabs (f32_value (el32 (fc_b l) [0%Z; j])) <= B) -> A * (M + E) + B <= 2 ^ 120 ->
      drift [n; k] M E (LFC l) [n; o] (A * M + B) (next_error k A B M E)
  | drift_conv : forall n h w M E l A B, conv_wf l -> all_finite (cv_w l) -> all_finite (cv_b l) -> cv_ic l = 1%Z -> (cv_kh l <= h)%Z -> (cv_kw l <= w)%Z ->
      (n * (cv_oc l * ((h - cv_kh l + 1) * (w - cv_kw l + 1))) <= INT_MAX)%Z -> (cv_kh l * cv_kw l < 2 ^ 23)%Z ->
      (forall o, (0 <= o < cv_oc l)%Z -> rsum (all_indices [cv_kh l; cv_kw l]) (fun pq => Rabs (f32_value (el32 (cv_w l) (o :: 0%Z :: pq)))) <= A) ->
      (forall o, (0 <= o < cv_oc l)%Z -> Rabs (f32_value (el32 (cv_b l) [o; 0%Z])) <= B) -> A * (M + E) + B <= 2 ^ 120 ->
      drift [n; 1%Z; h; w] M E (LConv l) [n; cv_oc l; h - cv_kh l + 1; w - cv_kw l + 1]%Z (A * M + B) (next_error (cv_kh l * cv_kw l) A B M E)
  | drift_relu : forall ds M E i, drift ds M E (LAct (mkActL ReLU i)) ds M E
  | drift_leaky : forall ds M E al i, f32_in (-1) 1 al -> drift ds M E (LAct (mkActL (LeakyReLU al) i)) ds M (E + (M + E) / 2 ^ 24 + / 2 ^ 150)
  | drift_sigmoid : forall ds M E i d, exp_like (m_exp lm) -> exp_within d (m_exp lm) -> 0 <= d -> drift ds M E (LAct (mkActL Sigmoid i)) ds 1 (E + d + / 2 ^ 21)
  | drift_tanh : forall ds M E i d, exp_like (m_exp lm) -> exp_within d (m_exp lm) -> 0 <= d -> M + E <= 30 -> drift ds M E (LAct (mkActL Tanh i)) ds 1 (E + 2 * d + / 2 ^ 20)
  | drift_swish : forall ds M E i d, exp_like (m_exp lm) -> exp_within d (m_exp lm) -> 0 <= d -> drift ds M E (LAct (mkActL Swish i)) ds M (2 * E + (M + E) * (d + / 2 ^ 20) + / 2 ^ 150)
  | drift_mish : forall ds M E i d, libm_like lm -> exp_within d (m_exp lm) -> log_within d (m_log lm) -> tanh_within d (m_tanh lm) -> 0 <= d <= / 16 ->
      drift ds M E (LAct (mkActL Mish i)) ds M (2 * E + (M + E) * (d * (M + E + 6) + / 2 ^ 20) + / 2 ^ 150)
  | drift_softmax : forall n r M E i d, r <> [] -> exp_like (m_exp lm) -> exp_within d (m_exp lm) -> 0 <= d <= / 16 -> (prod r <= 2 ^ 20)%Z -> M + E <= 2 ^ 120 ->
      drift (n :: r) M E (LAct (mkActL Softmax i)) (n :: r) 1 (2 * E + (M + E) / 2 ^ 22 + 4 * d + 5 * IZR (prod r) / 2 ^ 23)
  | drift_flatten2 : forall n k M E l, drift [n; k] M E (LFlat l) [n; k] M E
  | drift_flatten : forall n c r M E l, r <> [] -> drift (n :: c :: r) M E (LFlat l) [n; prod (c :: r)] M E
  | drift_pool : forall n c h w M E l, po_pad l = 0%Z -> (0 < po_stride l)%Z -> (0 < po_size l)%Z -> (po_size l <= h)%Z -> (po_size l <= w)%Z ->
      drift [n; c; h; w] M E (LPool l) [n; c; pool_extent (po_size l) (po_stride l) h; pool_extent (po_size l) (po_stride l) w] M E
  | drift_bn : forall f ds M E l mu A B C, bn_rows f l -> bn_train l = false -> featured f ds -> all_finite (bn_gamma l) -> all_finite (bn_beta l) -> all_finite (bn_rmean l) -> all_finite (bn_rvar l) -> f32_in (/ 2 ^ 40) 1 (bn_eps l) ->
      (forall j, (0 <= j < f)%Z -> 0 <= f32_value (el32 (bn_rvar l) [0%Z; j]) <= 2 ^ 100 /\ Rabs (f32_value (el32 (bn_rmean l) [0%Z; j])) <= mu /\
         Rabs (f32_value (el32 (bn_gamma l) [0%Z; j])) <= A * sqrt (f32_value (el32 (bn_rvar l) [0%Z; j]) + f32_value (bn_eps l)) /\ Rabs (f32_value (el32 (bn_gamma l) [0%Z; j])) <= C /\ Rabs (f32_value (el32 (bn_beta l) [0%Z; j])) <= B) ->
      C <= 2 ^ 100 -> M + E + mu <= 2 ^ 90 -> A * (M + E + mu) + B <= 2 ^ 119 ->
      drift ds M E (LBN l) ds (A * (M + mu) + B) (norm_error mu A B C M E)
  | drift_dropout : forall ds M E r m, drift ds M E (LDrop (mkDrop r m false)) ds M E.
(** The layers one after the other. *)
Inductive drifts : list Z -> R -> R -> list (layer f32) -> list Z -> R -> R -> Prop :=
  | drifts_nil : forall ds M E, drifts ds M E [] ds M E
  | drifts_cons : forall ds M E l ds1 M1 E1 r ds2 M2 E2, drift ds M E l ds1 M1 E1 -> drifts ds1 M1 E1 r ds2 M2 E2 -> drifts ds M E (l :: r) ds2 M2 E2.
End S.
